From Verif Require Import Base BaseLemmas Conf ConfSpec MetaFile SegCodec Segment SegSpec SegCodecProofs SegProofs SegStore SegStoreSpec SegStoreProofs.
From Coq Require Import Permutation Sorted.

(** * Loading a disk *)
Lemma map_set_in : forall A (key : A -> Z) x l y, In y (map_set key x l) -> y = x \/ In y l.
Proof. intros A key x. induction l as [|z l IH]; intros y I; cbn in I; [destruct I; auto; contradiction|]. destruct (key x <? key z); [destruct I; auto|]. destruct (key x =? key z); [destruct I; cbn; auto|]. destruct I as [<-|I]; cbn; auto. destruct (IH _ I); auto. Qed.
Definition klt {A} (key : A -> Z) (x y : A) : Prop := key x < key y.
Lemma map_set_perm : forall A (key : A -> Z) x l, ~ In (key x) (map key l) -> Permutation (x :: l) (map_set key x l).
Proof.
  intros A key x. induction l as [|z l IH]; intros N; cbn; [auto|]. destruct (key x <? key z); [auto|]. destruct (Z.eqb_spec (key x) (key z)) as [E|E]; [exfalso; apply N; left; auto|]. rewrite perm_swap. apply perm_skip. apply IH. intros I. apply N. right. auto.
Qed.
Lemma map_set_sorted : forall A (key : A -> Z) x l, StronglySorted (klt key) l -> StronglySorted (klt key) (map_set key x l).
Proof.
  intros A key x. induction l as [|z l IH]; intros S; cbn; [repeat constructor|]. inversion S as [|? ? S1 S2]; subst. destruct (Z.ltb_spec (key x) (key z)).
  - constructor; auto. constructor; [auto|]. rewrite Forall_forall in *. intros y I. specialize (S2 y I). unfold klt in *. lia.
  - destruct (Z.eqb_spec (key x) (key z)) as [E|E].
    + constructor; auto. rewrite Forall_forall in *. intros y I. specialize (S2 y I). unfold klt in *. lia.
    + constructor; auto. rewrite Forall_forall in *. intros y I. destruct (map_set_in _ _ _ _ _ I) as [->|I2]; [unfold klt; lia|]. auto.
Qed.
Lemma sorted_perm_eq : forall A (key : A -> Z) a b, StronglySorted (klt key) a -> StronglySorted (klt key) b -> Permutation a b -> a = b.
Proof.
  intros A key. induction a as [|x a IH]; intros b Sa Sb P.
  - apply Permutation_nil in P. auto.
  - destruct b as [|y b]; [apply Permutation_sym, Permutation_nil in P; discriminate|]. inversion Sa as [|? ? Sa1 Sa2]; subst. inversion Sb as [|? ? Sb1 Sb2]; subst. rewrite Forall_forall in *.
    assert (x = y).
    { pose proof (Permutation_in x P (or_introl eq_refl)) as Ix. pose proof (Permutation_in y (Permutation_sym P) (or_introl eq_refl)) as Iy. destruct Ix as [|Ix]; [auto|]. destruct Iy as [|Iy]; [auto|]. specialize (Sa2 _ Iy). specialize (Sb2 _ Ix). unfold klt in *. lia. }
    subst y. f_equal. apply IH; auto. eapply Permutation_cons_inv; eauto.
Qed.
Lemma fold_set : forall A (key : A -> Z) l m, StronglySorted (klt key) m -> NoDup (map key (l ++ m)) ->
  StronglySorted (klt key) (fold_left (fun m x => map_set key x m) l m) /\ Permutation (l ++ m) (fold_left (fun m x => map_set key x m) l m).
Proof.
  intros A key. induction l as [|x l IH]; intros m S N; cbn [fold_left]; [auto|]. cbn [app map] in N. inversion N as [|? ? N1 N2]; subst.
  assert (P : Permutation (x :: m) (map_set key x m)) by (apply map_set_perm; intros I; apply N1; rewrite map_app; apply in_or_app; auto).
  assert (P2 : Permutation (x :: l ++ m) (l ++ map_set key x m)) by (rewrite <- P; apply Permutation_middle).
  destruct (IH (map_set key x m)) as [A1 A2]; [apply map_set_sorted; auto| |].
  - eapply Permutation_NoDup; [apply Permutation_map; exact P2|]. cbn [map]. constructor; auto.
  - split; [exact A1|]. cbn [app]. rewrite P2. exact A2.
Qed.
Lemma fold_set_perm : forall A (key : A -> Z) s l, StronglySorted (klt key) s -> Permutation s l -> fold_left (fun m x => map_set key x m) l [] = s.
Proof.
  intros A key s l S P. assert (N : NoDup (map key s)).
  { clear P. induction S as [|x s S IH F]; cbn; constructor; auto. intros I. apply in_map_iff in I. destruct I as [y [E I]]. rewrite Forall_forall in F. specialize (F _ I). unfold klt in F. lia. }
  destruct (fold_set _ key l [] ltac:(constructor)) as [A1 A2]. { rewrite app_nil_r. eapply Permutation_NoDup; [apply Permutation_map; exact P|exact N]. }
  rewrite app_nil_r in A2. apply (sorted_perm_eq _ key); auto. rewrite <- A2. apply Permutation_sym. exact P.
Qed.

Definition key3 (y : Z * Z * list Z) : Z := fst (fst y).
Lemma chain_sorted : forall H segs f its, chain H f segs its -> StronglySorted (klt key3) (closed_files segs).
Proof.
  intros H. induction segs as [|g segs IH]; intros f its C; [constructor|]. chinv C. cbn [closed_files map]. constructor; [eapply IH; eauto|]. rewrite Forall_forall. intros y I. apply in_map_iff in I. destruct I as [g2 [<- I]]. unfold klt, key3. cbn [fst].
  destruct (chain_bounds _ _ _ _ _ Ct I) as [B _]. rewrite (sr_first _ _ _ _ Rg). pose proof (zlen_pos _ _ Ne). lia.
Qed.
Lemma check_rest : forall H first segs f its, chain H f segs its -> 1 <= f -> check_closed first (f - 1) (closed_files segs) = Some (closed_files segs, f + zlen its - 1).
Proof.
  intros H first. induction segs as [|g segs IH]; intros f its C F.
  - rewrite (chain_nil _ _ _ C). change (zlen (@nil (Z * sent))) with 0. cbn [closed_files map check_closed]. repeat f_equal. lia.
  - chinv C. cbn [closed_files map check_closed]. pose proof (zlen_pos _ _ Ne). rewrite (sr_first _ _ _ _ Rg), (sr_last _ _ _ _ Rg). destruct (Z.ltb_spec (f + zlen l - 1) f); [lia|]. destruct (Z.eqb_spec (f - 1) (-1)); [lia|]. destruct (Z.eqb_spec f (f - 1 + 1)); [|lia]. cbn [negb andb].
    change (map (fun g0 => (sg_first g0, sg_last g0, sg_file g0)) segs) with (closed_files segs). rewrite (IH _ _ Ct) by lia. rewrite zlen_app. replace (f + (zlen l + zlen its0) - 1) with (f + zlen l + zlen its0 - 1) by lia. reflexivity.
Qed.
Lemma check_chain : forall H first segs f its p r, chain H f segs its -> 1 <= f <= first -> pop_front first segs = (p, r) ->
  check_closed first (-1) (closed_files segs) = Some (closed_files r, match r with [] => -1 | _ => f + zlen its - 1 end).
Proof.
  intros H first. induction segs as [|g segs IH]; intros f its p r C F E.
  - cbn in E. injection E as <- <-. reflexivity.
  - chinv C. cbn [closed_files map check_closed]. pose proof (zlen_pos _ _ Ne). cbn [pop_front] in E. rewrite (sr_first _ _ _ _ Rg). rewrite (sr_last _ _ _ _ Rg) in *. destruct (Z.ltb_spec (f + zlen l - 1) f); [lia|]. change (-1 =? -1) with true. cbn [negb andb]. destruct (Z.ltb_spec first f); [lia|].
    change (map (fun g0 => (sg_first g0, sg_last g0, sg_file g0)) segs) with (closed_files segs). destruct (Z.ltb_spec (f + zlen l - 1) first).
    + destruct (pop_front first segs) as [p2 r2] eqn:E2. injection E as <- <-. rewrite (IH _ _ _ _ Ct ltac:(lia) eq_refl). rewrite zlen_app. destruct r2; [reflexivity|]. replace (f + (zlen l + zlen its0) - 1) with (f + zlen l + zlen its0 - 1) by lia. reflexivity.
    + injection E as <- <-. replace (f + zlen l - 1) with (f + zlen l - 1) by lia. pose proof (check_rest _ first _ _ _ Ct ltac:(lia)) as CR. rewrite CR. rewrite zlen_app. cbn [closed_files map]. rewrite (sr_first _ _ _ _ Rg), (sr_last _ _ _ _ Rg). replace (f + (zlen l + zlen its0) - 1) with (f + zlen l + zlen its0 - 1) by lia. reflexivity.
Qed.
Lemma confs_app : forall a f b, confs_of f (a ++ b) = confs_of f a ++ confs_of (f + zlen a) b.
Proof. induction a as [|x a IH]; intros f b; [change (zlen (@nil (Z * sent))) with 0; rewrite Z.add_0_r; reflexivity|]. cbn [app confs_of]. rewrite IH, zlen_cons, <- app_assoc. replace (f + (zlen a + 1)) with (f + 1 + zlen a) by lia. reflexivity. Qed.
Lemma load_all_chain : forall H rc segs f its, chain H f segs its -> exists segs', load_all H rc (closed_files segs) = Some (Some (segs', confs_of f its)) /\ chain H f segs' its.
Proof.
  intros H rc. induction segs as [|g segs IH]; intros f its C.
  - rewrite (chain_nil _ _ _ C). exists []. split; [reflexivity|constructor].
  - chinv C. cbn [closed_files map load_all]. destruct (load_closed H rc f l (sr_good _ _ _ _ Rg)) as [g' [E [R' O']]]. rewrite (sr_first _ _ _ _ Rg), (sr_last _ _ _ _ Rg), (sr_file _ _ _ _ Rg), E.
    change (map (fun g0 => (sg_first g0, sg_last g0, sg_file g0)) segs) with (closed_files segs). destruct (IH _ _ Ct) as [segs' [E2 C2]]. rewrite E2. exists (g' :: segs'). rewrite confs_app. split; [reflexivity|econstructor; eauto].
Qed.
Lemma chain_last : forall H segs f its g, chain H f (segs ++ [g]) its -> sg_last g = f + zlen its - 1.
Proof.
  intros H segs f its g C. destruct (chain_split _ _ _ _ _ C) as [ia [ib [-> [C1 C2]]]]. chinv C2. rewrite (chain_nil _ _ _ Ct), (sr_last _ _ _ _ Rg). rewrite !zlen_app. change (zlen (@nil (Z * sent))) with 0. lia.
Qed.
Lemma last_of_chain : forall H segs f its d, chain H f segs its -> last_of segs d = match segs with [] => d | _ => f + zlen its - 1 end.
Proof.
  intros H segs f its d C. destruct (rev segs) as [|g r] eqn:E; [apply (f_equal (@rev _)) in E; rewrite rev_involutive in E; subst; reflexivity|]. apply (f_equal (@rev _)) in E. rewrite rev_involutive in E. cbn [rev] in E. subst segs. unfold last_of. rewrite rev_app_distr. cbn [rev app]. rewrite (chain_last _ _ _ _ _ C). destruct (rev r); reflexivity.
Qed.
Lemma confs_below : forall l f first, f + zlen l <= first -> filter (fun x => first <=? fst x) (confs_of f l) = [].
Proof.
  induction l as [|x l IH]; intros f first L; [reflexivity|]. rewrite zlen_cons in L. pose proof (zlen_nonneg l). cbn [confs_of]. rewrite filter_app, IH by lia. rewrite app_nil_r. unfold conf_at. destruct (se_body (snd x)); try reflexivity. cbn [filter fst]. destruct (Z.leb_spec first f); [lia|reflexivity].
Qed.
Lemma confs_above : forall l f first, first <= f -> filter (fun x => first <=? fst x) (confs_of f l) = confs_of f l.
Proof.
  induction l as [|x l IH]; intros f first L; [reflexivity|]. cbn [confs_of]. rewrite filter_app, IH by lia. f_equal. unfold conf_at. destruct (se_body (snd x)); try reflexivity. cbn [filter fst]. destruct (Z.leb_spec first f); [reflexivity|lia].
Qed.
Lemma confs_from : forall l f first, f <= first -> filter (fun x => first <=? fst x) (confs_of f l) = confs_of first (skipn (Z.to_nat (first - f)) l).
Proof.
  intros l f first L. destruct (Z_le_gt_dec (f + zlen l) first) as [G|G].
  - rewrite confs_below by lia. rewrite skipn_all2 by (unfold zlen in G; lia). reflexivity.
  - rewrite <- (firstn_skipn (Z.to_nat (first - f)) l) at 1. rewrite confs_app, filter_app. assert (Hf : f + zlen (firstn (Z.to_nat (first - f)) l) = first) by (unfold zlen in *; rewrite firstn_length; lia).
    rewrite confs_below by lia. rewrite Hf. cbn [app]. apply confs_above. lia.
Qed.

(** The disk: a chain of closed files, and possibly an open one cut after [k] bytes of the records of [lo]. *)
Definition cut_open (H : hashes) (fo : Z) (opens : list (Z * list Z)) (lo' : list (Z * sent)) : Prop :=
  (opens = [] /\ lo' = []) \/ exists lo k, Forall good_item lo /\ opens = [(fo, firstn (Z.to_nat k) (bytes_of H lo))] /\ lo' = whole H k lo.
Lemma skipn_drop : forall A (a b : list A) n, zlen a <= n -> skipn (Z.to_nat n) (a ++ b) = skipn (Z.to_nat (n - zlen a)) b.
Proof. intros A a b n L. rewrite skipn_app, skipn_all2 by (unfold zlen in L; lia). cbn [app]. f_equal. unfold zlen in *. lia. Qed.
Lemma init_disk : forall H rc first f0 segs ci lo d, chain H f0 segs ci -> 1 <= f0 <= first -> dk_meta d = Some first -> Permutation (closed_files segs) (dk_closed d) -> cut_open H (f0 + zlen ci) (dk_open d) lo ->
  exists s c, st_init H rc d = Some (Some (s, c)) /\ st_inv H s first (skipn (Z.to_nat (first - f0)) (ci ++ lo)) /\ filter (fun x => first <=? fst x) c = confs_of first (skipn (Z.to_nat (first - f0)) (ci ++ lo)).
Proof.
  intros H rc first f0 segs ci lo d C F M P O. unfold st_init. rewrite M.
  assert (Fm : fold_left (fun m x => map_set (fun y : Z * Z * list Z => fst (fst y)) x m) (dk_closed d) [] = closed_files segs) by (apply (fold_set_perm _ key3); [eapply chain_sorted; eauto|exact P]).
  destruct (pop_front_chain H first _ _ _ C) as [p [r [ip [ir [Ep [-> [-> [Cp [Cr [Pp Pr]]]]]]]]]].
  pose proof (check_chain _ first _ _ _ _ _ C F Ep) as CC.
  assert (Lp : p <> [] -> f0 + zlen ip <= first).
  { intros Np. destruct (exists_last Np) as [p' [g ->]]. pose proof (chain_last _ _ _ _ _ Cp). specialize (Pp g ltac:(apply in_or_app; right; left; reflexivity)). lia. }
  assert (Lip : zlen ip <= first - f0).
  { destruct p as [|g p]; [rewrite (chain_nil _ _ _ Cp); change (zlen (@nil (Z * sent))) with 0; lia|]. specialize (Lp ltac:(discriminate)). lia. }
  destruct (load_all_chain H rc _ _ _ Cr) as [segs' [El Cl]]. pose proof (last_of_chain _ _ _ _ 0 Cl) as LO.
  assert (Hr : match segs' with [] => r = [] | _ => r <> [] end).
  { destruct r as [|g r]; [rewrite (chain_nil _ _ _ Cr) in Cl; destruct segs'; [auto|]; apply chain_nonempty in Cl; congruence|]. destruct segs'; [|discriminate]. pose proof (chain_nonempty _ _ _ _ _ Cr) as N. rewrite (chain_nil _ _ _ Cl) in N. congruence. }
  assert (Sk : forall x, skipn (Z.to_nat (first - f0)) ((ip ++ ir) ++ x) = skipn (Z.to_nat (first - (f0 + zlen ip))) (ir ++ x)).
  { intros x. rewrite <- app_assoc, skipn_drop by lia. f_equal. f_equal. lia. }
  rewrite Sk. set (f1 := f0 + zlen ip) in *. assert (F1 : 1 <= f1 <= first) by (pose proof (zlen_nonneg ip); unfold f1; lia).
  assert (Ir : r <> [] -> first <= f1 + zlen ir - 1).
  { intros Nr. destruct r as [|g r]; [congruence|]. pose proof (chain_bounds _ _ _ _ g Cr (or_introl eq_refl)). lia. }
  assert (OK : forall o, segs' <> [] -> first_ok first segs' o).
  { intros o N. destruct segs' as [|g' s'']; [congruence|]. cbn [first_ok]. destruct r as [|g r]; [congruence|]. 
    cbn [closed_files map load_all] in El. destruct (chain_inv _ _ _ _ _ Cr) as [l1 [i1 [E1 [R1 [N1 [O1 C1]]]]]]. destruct (load_closed H rc f1 l1 (sr_good _ _ _ _ R1)) as [g2 [E2 [R2 O2]]]. rewrite (sr_first _ _ _ _ R1), (sr_last _ _ _ _ R1), (sr_file _ _ _ _ R1), E2 in El.
    destruct (load_all H rc (map (fun g0 => (sg_first g0, sg_last g0, sg_file g0)) r)) as [[[ss cs]|]|]; try discriminate. injection El as <- _ _. rewrite (sr_last _ _ _ _ R2). rewrite (sr_last _ _ _ _ R1) in Pr. exact Pr. }
  destruct O as [[Eo ->]|[lo0 [k [Gl [Eo ->]]]]]; rewrite Eo; cbv iota; rewrite Fm, CC; cbv iota; rewrite El; cbv zeta iota.
  - eexists _, _. split; [reflexivity|]. rewrite app_nil_r. split; [|apply confs_from; lia].
    destruct segs' as [|g' s''].
    + rewrite (chain_nil _ _ _ Cl). exists first, [], []. rewrite LO. change (0 =? 0) with true. cbv iota. constructor; cbn [st_segs st_open st_first st_last st_meta first_ok open_rep app]; auto; try lia; [constructor|rewrite !skipn_nil; reflexivity|change (zlen (@nil (Z * sent))) with 0; lia].
    + exists f1, ir, []. rewrite LO. specialize (Ir Hr). destruct (Z.eqb_spec (f1 + zlen ir - 1) 0); [lia|]. constructor; cbn [st_segs st_open st_first st_last st_meta open_rep]; auto; try lia; [rewrite app_nil_r; reflexivity|rewrite app_nil_r; reflexivity|apply OK; discriminate].
  - assert (Ee : (f0 + zlen (ip ++ ir) - 1 <? match r with [] => -1 | _ => f0 + zlen (ip ++ ir) - 1 end) = false).
    { apply Z.ltb_ge. rewrite zlen_app. pose proof (zlen_nonneg ip). pose proof (zlen_nonneg ir). destruct r; lia. }
    rewrite Ee. destruct (load_open_cut H rc (f0 + zlen (ip ++ ir)) lo0 k Gl) as [g [Eg [Rg Og]]]. rewrite Eg. set (lo := whole H k lo0) in *. pose proof (sr_last _ _ _ _ Rg) as Lg. assert (Fo : f0 + zlen (ip ++ ir) = f1 + zlen ir) by (rewrite zlen_app; unfold f1; lia). rewrite Fo in *.
    pose proof (zlen_nonneg lo) as Nlo. pose proof (zlen_nonneg ir) as Nir.
    assert (CF : filter (fun x => first <=? fst x) (confs_of f1 ir ++ confs_of (f1 + zlen ir) lo) = confs_of first (skipn (Z.to_nat (first - f1)) (ir ++ lo))) by (rewrite <- confs_app; apply confs_from; lia).
    destruct (Z.ltb_spec (sg_last g) first).
    + eexists _, _. split; [reflexivity|]. split; [|exact CF]. destruct segs' as [|g' s'']; [|specialize (Ir Hr); lia]. rewrite (chain_nil _ _ _ Cl) in *. cbn [app] in *. change (zlen (@nil (Z * sent))) with 0 in *.
      exists first, [], []. rewrite LO. change (0 =? 0) with true. cbv iota. constructor; cbn [st_segs st_open st_first st_last st_meta first_ok open_rep app]; auto; try lia; [constructor| |change (zlen (@nil (Z * sent))) with 0; lia]. rewrite skipn_nil. apply skipn_all2. unfold zlen in *. lia.
    + eexists _, _. split; [reflexivity|]. split; [|exact CF]. destruct (Z.eqb_spec (sg_last g) 0); [lia|]. exists f1, ir, lo. constructor; cbn [st_segs st_open st_first st_last st_meta]; auto; try lia.
      * split; [exact Rg|exact Og].
      * rewrite zlen_app. lia.
      * destruct segs' as [|g' s'']; [|apply OK; discriminate]. cbn [first_ok]. lia.
Qed.
