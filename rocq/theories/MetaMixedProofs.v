From Verif Require Import Base BaseLemmas MetaMixed MetaMixedSpec.

Lemma ple_refl : forall a, ple a a. Proof. unfold ple; intros; lia. Qed.
Lemma ple_trans : forall a b c, ple a b -> ple b c -> ple a c.
Proof. unfold ple. intros [? ?] [? ?] [? ?]; cbn. lia. Qed.

Definition cmp (a b : pair) := ple a b \/ ple b a.
Definition dbv (x : mixed) : pair := match m_db x with Some m => m | None => (1, ANY) end.
Definition vals (x : mixed) : list pair := [s_mem x; s_disk x; dbv x].

Definition Inv (x : mixed) (view : option pair) (ack att : list pair) (m0 : list pair) : Prop :=
  (forall a b, In a (vals x) -> In b (vals x) -> cmp a b) /\
  (forall a, In a (vals x) -> ple (1, ANY) a) /\
  (match view with
   | Some v => forall a, In a (vals x) -> ple a v
   | None => True end) /\
  (forall p a, In p ack -> In a (vals x) -> ple p a) /\
  (forall a, In a (vals x) -> In a att \/ In a m0 \/ a = (1, ANY)).

Lemma ple_any_le : forall p q, ple (1, ANY) p -> ple p q -> ple (1, ANY) q.
Proof. intros; eapply ple_trans; eauto. Qed.

(** Replacing some of the three values by [p], where [p] is above all of them. *)
Lemma inv_set : forall x x' v ack att m0 p,
  Inv x (Some v) ack att m0 -> ple v p ->
  (forall a, In a (vals x') -> a = p \/ In a (vals x)) ->
  Inv x' (Some p) ack (p :: att) m0 /\
  ((forall a, In a (vals x') -> a = p) -> Inv x' (Some p) (p :: ack) (p :: att) m0).
Proof.
  intros x x' v ack att m0 p [I1 [I2 [I3 [I4 I5]]]] Hp Hv.
  assert (Hle : forall a, In a (vals x) -> ple a p).
  { intros a Ha. eapply ple_trans; eauto. }
  assert (Hne : In (s_mem x) (vals x)) by (cbn; auto).
  assert (HI : Inv x' (Some p) ack (p :: att) m0).
  { split; [|split; [|split; [|split]]].
    - intros a b Ha Hb. apply Hv in Ha, Hb.
      destruct Ha as [->|Ha], Hb as [->|Hb].
      + left; apply ple_refl. + right; auto. + left; auto. + auto.
    - intros a Ha. apply Hv in Ha. destruct Ha as [->|Ha]; auto.
      eapply ple_trans; [|apply Hle; exact Hne]. auto.
    - intros a Ha. apply Hv in Ha. destruct Ha as [->|Ha]; auto. apply ple_refl.
    - intros q a Hq Ha. apply Hv in Ha. destruct Ha as [->|Ha]; auto.
      eapply ple_trans; [|apply Hle; exact Hne]. auto.
    - intros a Ha. apply Hv in Ha. destruct Ha as [->|Ha]; [left; cbn; auto|].
      destruct (I5 a Ha); [left; cbn; auto|auto]. }
  split; auto. intros Hall. destruct HI as [J1 [J2 [J3 [J4 J5]]]].
  split; [|split; [|split; [|split]]]; auto.
  intros q a [<-|Hq] Ha; auto. rewrite (Hall a Ha). apply ple_refl.
Qed.

Lemma inv_sub : forall x x' v v' ack att m0,
  Inv x v ack att m0 -> (forall a, In a (vals x') -> In a (vals x)) ->
  (match v' with Some w => forall a, In a (vals x') -> ple a w | None => True end) ->
  Inv x' v' ack att m0.
Proof.
  intros x x' v v' ack att m0 [I1 [I2 [I3 [I4 I5]]]] Hs Hv.
  split; [|split; [|split; [|split]]]; auto.
Qed.

Lemma get_spec : forall x v ack att m0 wi a wr x' g,
  Inv x v ack att m0 -> mixed_get x wi a wr = (x', g) ->
  (forall q, In q (vals x') -> In q (vals x)) /\
  g <> GAbort /\
  (forall p, g = GOk p -> m_db x' = Some p /\ s_mem x' = p /\ In p (vals x) /\ ple (s_mem x) p /\ (forall q, In q (vals x) -> q = s_disk x \/ ple q p) /\ (forall q, In q (vals x') -> q = p \/ (q = s_disk x' /\ s_disk x' = s_disk x))).
Proof.
  intros x v ack att m0 wi a wr x' g [I1 [I2 _]] H.
  destruct x as [[t1 p1] d mo]. unfold mixed_get in H. cbn [s_mem] in H.
  assert (Hcmp : cmp (t1, p1) (dbv (mkMx (t1, p1) d mo))) by (apply I1; cbn; auto).
  destruct mo as [[t2 p2]|].
  - cbn [m_db] in H. unfold dbv in Hcmp; cbn in Hcmp.
    destruct ((t1 =? t2) && (p1 =? p2)) eqn:E1.
    { inversion H; subst. apply andb_true_iff in E1. destruct E1 as [E1 E2].
      apply Z.eqb_eq in E1, E2. subst.
      split; auto. split; [discriminate|]. intros p Hp; inversion Hp; subst. cbn.
      unfold vals, dbv; cbn. repeat split; auto; try (apply ple_refl).
      - intros q [<-|[<-|[<-|[]]]]; auto; right; apply ple_refl.
      - intros q [<-|[<-|[<-|[]]]]; auto. }
    assert (Hne : t1 <> t2 \/ p1 <> p2).
    { apply andb_false_iff in E1. rewrite !Z.eqb_neq in E1. auto. }
    destruct ((t1 =? t2) && negb (p1 =? ANY) && negb (p2 =? ANY)) eqn:E2.
    { exfalso. rewrite !andb_true_iff, !negb_true_iff, !Z.eqb_neq, Z.eqb_eq in E2.
      destruct E2 as [[-> N1] N2]. destruct Hcmp as [[C|[_ C]]|[C|[_ C]]]; cbn in C; try lia; intuition congruence. }
    destruct ((t2 <? t1) || ((t1 =? t2) && negb (p1 =? ANY) && (p2 =? ANY))) eqn:E3.
    + assert (Hgt : ple (t2, p2) (t1, p1)).
      { apply orb_true_iff in E3. rewrite !andb_true_iff, Z.ltb_lt, negb_true_iff, Z.eqb_neq, !Z.eqb_eq in E3.
        unfold ple; cbn. destruct E3 as [E3|[[E3 _] E4]]; auto. }
      inversion H; subst; clear H. split; [|split].
      * intros q. unfold vals, dbv, merged_set; cbn. destruct wr; cbn; tauto.
      * destruct (is_ok wr); discriminate.
      * intros p Hp. destruct wr; cbn in Hp; inversion Hp; subst. unfold vals, dbv, merged_set; cbn.
        repeat split; auto; try (apply ple_refl).
        -- intros q [<-|[<-|[<-|[]]]]; auto. right; apply ple_refl.
        -- intros q [<-|[<-|[<-|[]]]]; auto.
    + assert (Hlt : ple (t1, p1) (t2, p2)).
      { destruct Hcmp as [C|C]; auto. exfalso.
        apply orb_false_iff in E3. rewrite Z.ltb_ge in E3. destruct E3 as [E3 E4].
        unfold ple in C; cbn in C. destruct C as [C|[C1 C2]]; [lia|]. subst t2.
        rewrite Z.eqb_refl in *. cbn in *. destruct C2 as [C2|C2]; [|destruct Hne; congruence].
        subst p2. destruct (Z.eqb_spec p1 ANY); cbn in *; [|discriminate].
        subst. destruct Hne; congruence. }
      inversion H; subst; clear H. split; [|split].
      * intros q. unfold vals, dbv, single_set; cbn. destruct a; cbn; tauto.
      * destruct a; discriminate.
      * intros p Hp. destruct a; inversion Hp; subst. unfold vals, dbv, single_set; cbn.
        repeat split; auto; try (apply ple_refl).
        -- intros q [<-|[<-|[<-|[]]]]; auto. right; apply ple_refl.
        -- intros q [<-|[<-|[<-|[]]]]; auto.
  - cbn [m_db] in H. unfold dbv in Hcmp; cbn in Hcmp.
    assert (Hone : ple (1, ANY) (t1, p1)) by (apply I2; cbn; auto).
    destruct wi; cbn [is_ok] in H; try (inversion H; subst; split;
      [intros q; unfold vals, dbv, merged_set; cbn; tauto|split; [discriminate|intros; discriminate]]).
    destruct ((t1 =? 1) && (p1 =? ANY)) eqn:E1.
    { inversion H; subst. apply andb_true_iff in E1. destruct E1 as [E1 E2].
      apply Z.eqb_eq in E1, E2. subst.
      split; [intros q; unfold vals, dbv, merged_set; cbn; tauto|]. split; [discriminate|].
      intros p Hp; inversion Hp; subst. unfold vals, dbv, merged_set; cbn. repeat split; auto; try (apply ple_refl).
      - intros q [<-|[<-|[<-|[]]]]; auto; right; apply ple_refl.
      - intros q [<-|[<-|[<-|[]]]]; auto. }
    replace (negb (ANY =? ANY)) with false in H by reflexivity. rewrite andb_false_r in H.
    replace (ANY =? ANY) with true in H by reflexivity. rewrite andb_true_r in H.
    assert (Hgt : (1 <? t1) || ((t1 =? 1) && negb (p1 =? ANY)) = true).
    { apply andb_false_iff in E1. rewrite !Z.eqb_neq in E1. unfold ple in Hone; cbn in Hone.
      destruct (Z.ltb_spec 1 t1); auto. assert (t1 = 1) by lia. subst. cbn.
      destruct (Z.eqb_spec p1 ANY); auto. destruct E1; congruence. }
    rewrite Hgt in H. inversion H; subst; clear H.
    split; [|split].
    + intros q. unfold vals, dbv, merged_set; cbn. destruct wr; cbn; tauto.
    + destruct (is_ok wr); discriminate.
    + intros p Hp. destruct wr; cbn in Hp; inversion Hp; subst. unfold vals, dbv, merged_set; cbn.
      repeat split; auto; try (apply ple_refl).
      * intros q [<-|[<-|[<-|[]]]]; auto. right; apply ple_refl.
      * intros q [<-|[<-|[<-|[]]]]; auto.
Qed.

Lemma get_disk : forall x v ack att m0 wi a wr x' g,
  Inv x v ack att m0 -> ple (s_disk x) (s_mem x) -> mixed_get x wi a wr = (x', g) ->
  ple (s_disk x') (s_mem x').
Proof.
  intros x v ack att m0 wi a wr x' g HI Hd H.
  pose proof HI as [I1 [I2 _]].
  destruct x as [[t1 p1] d mo]. unfold mixed_get in H. cbn [s_mem s_disk] in *.
  assert (Hcmp : cmp (t1, p1) (dbv (mkMx (t1, p1) d mo))) by (apply I1; cbn; auto).
  cbn [m_db] in H.
  match type of H with (let '(_, _) := ?M in _) = _ => set (mm := M) in H end.
  assert (Hmm : s_mem (fst mm) = (t1,p1) /\ s_disk (fst mm) = d /\ (snd mm = None \/ snd mm = Some (dbv (mkMx (t1, p1) d mo)))).
  { unfold mm, dbv. destruct mo; cbn; auto. destruct wi; cbn; auto. }
  destruct mm as [y m]. cbn [fst snd] in Hmm. destruct Hmm as [M1 [M2 M3]].
  destruct M3 as [->| ->]; [inversion H; subst; congruence|].
  destruct (dbv _) as [t2 p2] eqn:Ed.
  destruct ((t1 =? t2) && (p1 =? p2)) eqn:E1; [inversion H; subst; congruence|].
  destruct ((t1 =? t2) && negb (p1 =? ANY) && negb (p2 =? ANY)) eqn:E2; [inversion H; subst; congruence|].
  destruct ((t2 <? t1) || ((t1 =? t2) && negb (p1 =? ANY) && (p2 =? ANY))) eqn:E3.
  - inversion H; subst. cbn. congruence.
  - inversion H; subst; cbn. destruct a; [apply ple_refl|].
    eapply ple_trans; [exact Hd|].
    destruct Hcmp as [C|C]; auto. unfold ple in *; cbn [fst snd] in *.
    destruct (Z.ltb_spec t2 t1); [discriminate|]. cbn in E3.
    destruct C as [C|[-> C]]; [lia|]. rewrite Z.eqb_refl in *. cbn in E3. right; split; auto.
    destruct C as [->| ->]; auto. destruct (Z.eqb_spec p1 ANY); auto. cbn in E3. discriminate.
Qed.

(** What every result of a disciplined run satisfies, given what happened before. *)
Lemma run_inv : forall es x v ack att m0,
  Inv x v ack att m0 -> ple (s_disk x) (s_mem x) -> disciplined v (snd (m_run x es)) ->
  forall h1 r h2, snd (m_run x es) = h1 ++ r :: h2 ->
  r <> RGet GAbort /\
  (forall p, r = RGet (GOk p) ->
     (forall q, In q ack \/ In q (acked h1) -> ple q p) /\
     (In p att \/ In p (attempted h1) \/ In p m0 \/ p = (1, ANY))).
Proof.
  induction es as [|e es IH]; intros x v ack att m0 HI Hd Hdis h1 r h2 Hh.
  { cbn in Hh. destruct h1; discriminate. }
  cbn [m_run] in *. destruct (m_step x e) as [x' r0] eqn:E. destruct (m_run x' es) as [x'' rs] eqn:Er.
  cbn [snd] in *.
  assert (IH' : forall v ack att, Inv x' v ack att m0 -> ple (s_disk x') (s_mem x') -> disciplined v rs ->
    forall h1 r h2, rs = h1 ++ r :: h2 -> r <> RGet GAbort /\
    (forall p, r = RGet (GOk p) -> (forall q, In q ack \/ In q (acked h1) -> ple q p) /\
     (In p att \/ In p (attempted h1) \/ In p m0 \/ p = (1, ANY)))).
  { intros v1 k1 t1 A B C. specialize (IH x' v1 k1 t1 m0 A B). rewrite Er in IH. exact (IH C). }
  clear IH.
  destruct e as [p a w|wi a wr|]; cbn [m_step] in E.
  - destruct (mixed_set x p a w) as [y ok] eqn:Es. inversion E; subst; clear E.
    cbn [disciplined] in Hdis. destruct v as [v|]; [|contradiction]. destruct Hdis as [Hvp Hdis].
    destruct (inv_set x x' v ack att m0 p HI Hvp) as [J1 J2].
    { unfold mixed_set in Es. destruct a; cbn in Es; inversion Es; subst; unfold vals, dbv; cbn;
        intros b; try (destruct w; cbn); intuition. }
    assert (Hd' : ple (s_disk x') (s_mem x')).
    { unfold mixed_set in Es. destruct a; cbn in Es; inversion Es; subst; cbn; [apply ple_refl|].
      destruct HI as [_ [_ [I3 _]]]. eapply ple_trans; [apply I3; cbn; auto|exact Hvp]. }
    destruct h1 as [|r1 h1]; cbn in Hh; inversion Hh; subst.
    { split; [discriminate|]. intros; discriminate. }
    destruct ok.
    + assert (Hall : forall b, In b (vals x') -> b = p).
      { unfold mixed_set in Es. destruct a; cbn in Es; [|discriminate].
        destruct w; cbn in Es; inversion Es; subst. unfold vals, dbv; cbn. intros b; intuition congruence. }
      destruct (IH' _ _ _ (J2 Hall) Hd' Hdis h1 r h2 eq_refl) as [K1 K2]. split; auto.
      intros q Hq. destruct (K2 q Hq) as [K3 K4]. split.
      * intros z Hz. apply K3. cbn in *. tauto.
      * cbn in *. tauto.
    + destruct (IH' _ _ _ J1 Hd' Hdis h1 r h2 eq_refl) as [K1 K2]. split; auto.
      intros q Hq. destruct (K2 q Hq) as [K3 K4]. split; auto. cbn in *. tauto.
  - destruct (mixed_get x wi a wr) as [y g] eqn:Eg. inversion E; subst; clear E.
    destruct (get_spec _ _ _ _ _ _ _ _ _ _ HI Eg) as [S1 [S2 S3]].
    pose proof (get_disk _ _ _ _ _ _ _ _ _ _ HI Hd Eg) as Hd'.
    assert (Hle : forall p, g = GOk p -> forall q, In q (vals x) -> ple q p).
    { intros p Hp q Hq. destruct (S3 p Hp) as [_ [_ [_ [M [Q _]]]]].
      destruct (Q q Hq) as [->|]; auto. eapply ple_trans; eauto. }
    destruct h1 as [|r1 h1]; cbn in Hh; inversion Hh; subst.
    + split; [congruence|]. intros p Hp. inversion Hp; subst.
      destruct (S3 p eq_refl) as [_ [_ [Hin _]]]. destruct HI as [_ [_ [_ [I4 I5]]]]. split.
      * intros q [Hq|[]]. apply I4; auto.
      * destruct (I5 p Hin); auto.
    + destruct g as [| |p]; cbn in Hdis.
      * refine (IH' v ack att _ Hd' Hdis h1 r h2 eq_refl). eapply inv_sub; eauto.
        destruct HI as [_ [_ [I3 _]]]. destruct v; auto.
      * congruence.
      * refine (IH' (Some p) ack att _ Hd' Hdis h1 r h2 eq_refl). eapply inv_sub; eauto.
  - inversion E; subst; clear E.
    destruct h1 as [|r1 h1]; cbn in Hh; inversion Hh; subst.
    { split; [discriminate|]. intros; discriminate. }
    cbn in Hdis. refine (IH' None ack att _ _ Hdis h1 r h2 eq_refl).
    + eapply inv_sub; eauto. unfold vals, mixed_restart, dbv; cbn. tauto.
    + cbn. apply ple_refl.
Qed.

Lemma start_inv : forall x, start_ok x -> Inv x None [] [] (vals x) /\ ple (s_disk x) (s_mem x).
Proof.
  intros x [H1 [H2 H3]]. split; [|rewrite H1; apply ple_refl].
  assert (A : cmp (s_disk x) (dbv x) /\ ple (1, ANY) (dbv x)).
  { unfold dbv. destruct (m_db x) as [m|].
    - unfold cmp. tauto.
    - split; [right; auto|apply ple_refl]. }
  destruct A as [A1 A2].
  assert (R : forall a, cmp a a) by (left; apply ple_refl).
  assert (S : cmp (dbv x) (s_disk x)) by (unfold cmp in *; tauto).
  split; [|split; [|split; [|split]]]; auto.
  - intros a b. unfold vals. rewrite H1. cbn. intuition (subst; auto).
  - intros a. unfold vals. rewrite H1. cbn. intuition (subst; auto).
  - intros p a [].
Qed.

Lemma mixed_reads : forall x es h1 r h2,
  start_ok x -> disciplined None (snd (m_run x es)) -> snd (m_run x es) = h1 ++ r :: h2 ->
  r <> RGet GAbort /\
  (forall p, r = RGet (GOk p) ->
     (forall q, In q (acked h1) -> ple q p) /\
     (In p (attempted h1) \/ p = s_disk x \/ m_db x = Some p \/ p = (1, ANY))).
Proof.
  intros x es h1 r h2 Hs Hd Hh. destruct (start_inv x Hs) as [HI HD].
  destruct (run_inv es x None [] [] (vals x) HI HD Hd h1 r h2 Hh) as [K1 K2]. split; auto.
  intros p Hp. destruct (K2 p Hp) as [K3 K4]. split; [auto|].
  destruct Hs as [H1 _]. unfold vals, dbv in K4. rewrite H1 in K4.
  destruct K4 as [[]|[K4|[K4|K4]]]; auto. cbn in K4.
  destruct (m_db x) as [m|]; intuition (subst; auto).
Qed.

Lemma mixed_get_agree : forall x wi a wr x' p,
  mixed_get x wi a wr = (x', GOk p) -> s_mem x' = p /\ m_db x' = Some p /\
  (s_mem x = s_disk x -> s_disk x' = p).
Proof.
  intros [[t1 p1] d mo] wi a wr x' p H. unfold mixed_get in H. cbn [s_mem s_disk m_db] in *.
  match type of H with (let '(_, _) := ?M in _) = _ => set (mm := M) in H end.
  assert (Hmm : s_mem (fst mm) = (t1,p1) /\ s_disk (fst mm) = d /\ (snd mm = None \/ m_db (fst mm) = snd mm)).
  { unfold mm. destruct mo; cbn; auto. destruct wi; cbn; auto. }
  destruct mm as [y m]. cbn [fst snd] in Hmm. destruct Hmm as [M1 [M2 M3]].
  destruct m as [[t2 p2]|]; [|discriminate].
  destruct M3 as [M3|M3]; [discriminate|].
  destruct ((t1 =? t2) && (p1 =? p2)) eqn:E1.
  { inversion H; subst. apply andb_true_iff in E1. rewrite !Z.eqb_eq in E1. destruct E1; subst.
    auto. }
  destruct ((t1 =? t2) && negb (p1 =? ANY) && negb (p2 =? ANY)) eqn:E2; [discriminate|].
  destruct ((t2 <? t1) || ((t1 =? t2) && negb (p1 =? ANY) && (p2 =? ANY))) eqn:E3.
  - destruct wr; cbn in H; inversion H; subst. cbn. auto.
  - destruct a; inversion H; subst. cbn. auto.
Qed.
