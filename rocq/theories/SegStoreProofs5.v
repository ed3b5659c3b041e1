From Verif Require Import Base BaseLemmas Conf ConfSpec MetaFile SegCodec Segment SegSpec SegCodecProofs SegProofs SegStore SegStoreSpec SegStoreProofs SegStoreProofs2 SegStoreProofs3 SegStoreProofs4.
From Coq Require Import Permutation.

(** * What a killed process leaves loads *)
Definition loads (H : hashes) (d : disk) (first : Z) (its : list (Z * sent)) : Prop :=
  forall rc d', same_files d d' -> exists s c, st_init H rc d' = Some (Some (s, c)) /\ st_inv H s first its /\ filter (fun x => first <=? fst x) c = confs_of first its.
Lemma loads_pieces : forall H first f0 segs ci opens lo, chain H f0 segs ci -> 1 <= f0 <= first -> cut_open H (f0 + zlen ci) opens lo ->
  loads H (mkDisk (Some first) (closed_files segs) opens) first (skipn (Z.to_nat (first - f0)) (ci ++ lo)).
Proof.
  intros H first f0 segs ci opens lo C F O rc d' [M [P Po]]. cbn [dk_meta dk_closed dk_open] in *. apply (init_disk H rc first f0 segs ci lo d'); auto. destruct O as [[-> ->]|[lo0 [k [G [-> ->]]]]].
  - left. apply Permutation_nil in Po. auto.
  - right. exists lo0, k. apply Permutation_length_1_inv in Po. auto.
Qed.
Lemma open_rep_cut : forall H o f oi, open_rep H o f oi -> cut_open H f (open_file o) oi.
Proof.
  intros H o f oi O. destruct o as [g|]; [|left; auto]. destruct O as [R _]. right. exists oi, (zlen (bytes_of H oi)). split; [apply R|]. cbn [open_file]. rewrite (sr_first _ _ _ _ R), (sr_file _ _ _ _ R). unfold zlen at 1. rewrite Nat2Z.id, firstn_all. split; [reflexivity|]. symmetry. apply whole_all. lia.
Qed.
Lemma loads_self : forall H s first its f0 ci oi, st_rep H s first its f0 ci oi -> loads H (disk_of s) first its.
Proof.
  intros H s first its f0 ci oi R. rewrite (sp_its _ _ _ _ _ _ _ R). unfold disk_of. rewrite (sp_meta _ _ _ _ _ _ _ R). apply loads_pieces; [apply R|apply R|]. apply open_rep_cut. apply R.
Qed.
Lemma crash_append_loads : forall H ck max nes s d, crash_append H ck max nes s d -> 0 <= max -> forall es idx first its, nes = number idx es -> idx = st_last s + 1 -> Forall (fun e => good_item (ck, e)) es -> st_inv H s first its ->
  exists n, loads H d first (its ++ map (fun e => (ck, e)) (firstn n es)).
Proof.
  intros H ck max nes s d Cr. induction Cr as [nes s|nes s g Eo Mx Ne|nes s s1 g Eo Ne|i e nes s s1 g k g' r Eo Ea Lk|i e nes s s1 g g' d Eo Ea Cr IH]; intros M es idx first its En Ei G [f0 [ci [oi R]]].
  - exists 0%nat. cbn [firstn map]. rewrite app_nil_r. eapply loads_self; eauto.
  - exists 0%nat. cbn [firstn map]. rewrite app_nil_r. destruct (open_segment max s) as [s1 g1] eqn:Eo1. destruct (open_pieces _ _ _ _ _ _ _ _ _ _ M R Eo1) as [ci' [oi' [Eq [C [Eo' [Rg [Og [Ef [El [Em OK]]]]]]]]]]. unfold open_segment in Eo1. rewrite Eo in Eo1. destruct (Z.ltb_spec max (sg_bytes g)); [|lia]. injection Eo1 as <- <-. cbn [st_segs] in C.
    pose proof (sr_last _ _ _ _ Rg) as L1. cbn [seg_create sg_last] in L1. pose proof (sp_last _ _ _ _ _ _ _ R) as La. rewrite <- Eq, zlen_app in La. pose proof (zlen_nonneg oi').
    assert (oi' = []) as ->. { pose proof (sr_offs _ _ _ _ Rg) as Of. cbn [seg_create sg_offs] in Of. destruct oi'; [reflexivity|discriminate]. }
    rewrite (sp_its _ _ _ _ _ _ _ R), <- Eq. rewrite (sp_meta _ _ _ _ _ _ _ R). apply loads_pieces; [exact C|apply R|left; auto].
  - exists 0%nat. cbn [firstn map]. rewrite app_nil_r. destruct (open_pieces _ _ _ _ _ _ _ _ _ _ M R Eo) as [ci' [oi' [Eq [C [Eo' [Rg [Og [Ef [El [Em OK]]]]]]]]]].
    rewrite (sp_its _ _ _ _ _ _ _ R), <- Eq. unfold disk_of. rewrite Em, (sp_meta _ _ _ _ _ _ _ R). apply loads_pieces; [exact C|apply R|]. apply (open_rep_cut H (st_open s1)). rewrite Eo'. split; auto.
  - exists 0%nat. cbn [firstn map]. rewrite app_nil_r. destruct es as [|e0 es]; [discriminate|]. cbn [number] in En. injection En as -> -> _. inversion G as [|? ? G1 G2]; subst. destruct (open_pieces _ _ _ _ _ _ _ _ _ _ M R Eo) as [ci' [oi' [Eq [C [Eo' [Rg [Og [Ef [El [Em OK]]]]]]]]]].
    rewrite (sp_its _ _ _ _ _ _ _ R), <- Eq. rewrite Em, (sp_meta _ _ _ _ _ _ _ R). apply loads_pieces; [exact C|apply R|]. right. exists (oi' ++ [(ck, e0)]), (zlen (bytes_of H oi') + Z.of_nat k). unfold seg_append in Ea. rewrite Og in Ea. cbn [negb] in Ea. destruct (st_last s + 1 =? sg_last g + 1); [|discriminate]. cbn [negb] in Ea. cbv zeta in Ea. injection Ea as <- _.
    cbn [open_file sg_first sg_file]. rewrite (sr_first _ _ _ _ Rg), (sr_file _ _ _ _ Rg), (sr_pos _ _ _ _ Rg), fwrite_end. split; [apply Forall_app; split; [apply Rg|constructor; [exact G1|constructor]]|]. split.
    + rewrite bytes_app, bytes_one. rewrite firstn_app_r by lia. repeat f_equal. cbn [fst snd]. f_equal. lia.
    + rewrite whole_app by lia. replace (zlen (bytes_of H oi') + Z.of_nat k - zlen (bytes_of H oi')) with (Z.of_nat k) by lia. cbn [whole fst snd]. destruct (Z.leb_spec (zlen (record H ck e0)) (Z.of_nat k)); [unfold zlen in *; lia|]. rewrite app_nil_r. reflexivity.
  - destruct es as [|e0 es]; [discriminate|]. cbn [number] in En. injection En as -> -> En. inversion G as [|? ? G1 G2]; subst. destruct (append_one _ _ _ _ _ _ _ _ _ _ _ _ _ M R eq_refl G1 Eo) as [g2 [ci' [oi' [Ea2 R']]]]. rewrite Ea in Ea2. injection Ea2 as ->.
    destruct (open_pieces _ _ _ _ _ _ _ _ _ _ M R Eo) as [? [? [_ [_ [_ [_ [_ [_ [El _]]]]]]]]].
    destruct (IH M es (st_last s + 1 + 1) first (its ++ [(ck, e0)])) as [n Ln]; auto; [cbn [st_last]; lia|eexists _, _, _; exact R'|]. exists (S n). cbn [firstn map]. rewrite <- app_assoc in Ln. exact Ln.
Qed.

Lemma In_firstn : forall A (l : list A) n x, In x (firstn n l) -> In x l.
Proof. intros A l n x I. rewrite <- (firstn_skipn n l). apply in_or_app. auto. Qed.
(** disk_with *)
Lemma filter_closed : forall l : list seg, (forall g, In g l -> sg_open g = false) -> filter (fun g => negb (sg_open g)) l = l /\ filter sg_open l = [].
Proof. induction l as [|g l IH]; intros A; [auto|]. destruct IH as [I1 I2]; [intros; apply A; right; auto|]. cbn [filter]. rewrite (A g (or_introl eq_refl)). cbn [negb]. rewrite I1, I2. auto. Qed.
Lemma disk_with_pieces : forall m l o, (forall g, In g l -> sg_open g = false) -> match o with Some g => sg_open g = true | None => True end ->
  disk_with m (l ++ match o with Some g => [g] | None => [] end) = mkDisk m (closed_files l) (open_file o).
Proof.
  intros m l o A O. unfold disk_with, files_of. cbn [fst snd]. rewrite !filter_app. destruct (filter_closed l A) as [-> ->]. destruct o as [g|]; cbn [filter app flat_map].
  - rewrite O. cbn [negb]. rewrite app_nil_r. reflexivity.
  - rewrite app_nil_r. reflexivity.
Qed.
Lemma chain_closed : forall H f segs its, chain H f segs its -> forall g, In g segs -> sg_open g = false.
Proof. intros. eapply chain_bounds; eauto. Qed.
Lemma rep_open_flag : forall H s first its f0 ci oi, st_rep H s first its f0 ci oi -> match st_open s with Some g => sg_open g = true | None => True end.
Proof. intros H s first its f0 ci oi R. pose proof (sp_open _ _ _ _ _ _ _ R) as O. unfold open_rep in O. destruct (st_open s); [apply O|auto]. Qed.

Lemma crash_prefix_loads : forall H s first its k d, st_inv H s first its -> crash_prefix k s d -> loads H d first its \/ (first < k /\ loads H d k (skipn (Z.to_nat (k - first)) its)).
Proof.
  intros H s first its k d [f0 [ci [oi R]]] [->|[Lk [s' [p [j [Ep [Lj ->]]]]]]]; [left; eapply loads_self; eauto|]. right. rewrite (sp_first _ _ _ _ _ _ _ R) in Lk. split; [exact Lk|].
  destruct (pop_segments_rep _ _ _ _ _ _ _ k R Lk) as [s2 [p2 [Ep2 [_ [rest [Ea Pl]]]]]]. rewrite Ep in Ep2. injection Ep2 as <- <-.
  pose proof (sp_chain _ _ _ _ _ _ _ R) as C. pose proof (sp_open _ _ _ _ _ _ _ R) as O. pose proof (sp_low _ _ _ _ _ _ _ R) as Lo.
  assert (Its : skipn (Z.to_nat (k - first)) its = skipn (Z.to_nat (k - f0)) (ci ++ oi)) by (rewrite (sp_its _ _ _ _ _ _ _ R), skipn_skipn'; f_equal; lia). rewrite Its. clear Its.
  assert (Pj : forall g, In g (firstn j (all_segs s)) -> sg_last g < k). { intros g I. apply Pl. rewrite Ea, firstn_app in I. replace (j - length p)%nat with 0%nat in I by lia. cbn [firstn] in I. rewrite app_nil_r in I. eapply In_firstn; eauto. }
  destruct (le_gt_dec j (length (st_segs s))) as [L|L].
  - unfold all_segs in *. rewrite skipn_app. replace (j - length (st_segs s))%nat with 0%nat by lia. cbn [skipn]. rewrite firstn_app in Pj. replace (j - length (st_segs s))%nat with 0%nat in Pj by lia. cbn [firstn] in Pj. rewrite app_nil_r in Pj. pose proof (firstn_skipn j (st_segs s)) as FS. pose proof C as C0. rewrite <- FS in C0. destruct (chain_split _ _ _ _ _ C0) as [ia [ib [-> [C1 C2]]]].
    rewrite disk_with_pieces; [|eapply chain_closed; eauto|eapply rep_open_flag; eauto].
    assert (La : zlen ia <= k - f0).
    { destruct (firstn j (st_segs s)) as [|g0 p0] eqn:E0; [rewrite (chain_nil _ _ _ C1); change (zlen (@nil (Z * sent))) with 0; lia|]. assert (Np : g0 :: p0 <> []) by discriminate. destruct (exists_last Np) as [p' [g Eg]]. rewrite Eg in *. pose proof (chain_last _ _ _ _ _ C1). specialize (Pj g ltac:(apply in_or_app; right; left; reflexivity)). lia. }
    rewrite <- app_assoc, skipn_drop by lia. replace (k - f0 - zlen ia) with (k - (f0 + zlen ia)) by lia. pose proof (zlen_nonneg ia). apply loads_pieces; [exact C2|lia|]. rewrite zlen_app in O. replace (f0 + zlen ia + zlen ib) with (f0 + (zlen ia + zlen ib)) by lia. apply open_rep_cut. exact O.
  - assert (Sk : skipn j (all_segs s) = []). { unfold all_segs. apply skipn_all2. rewrite app_length. destruct (st_open s); cbn [length]; [lia|]. assert (Hp : (length p <= length (all_segs s))%nat) by (rewrite Ea, app_length; lia). lia. }
    rewrite Sk. change (disk_with (Some k) []) with (mkDisk (Some k) (closed_files []) []). assert (skipn (Z.to_nat (k - f0)) (ci ++ oi) = []) as ->.
    { apply skipn_all2. assert (Ls : sg_last (last (all_segs s) (seg_create 0)) < k \/ all_segs s = []).
      { destruct (all_segs s) as [|g0 p0] eqn:E0; [auto|]. left. apply Pj. rewrite firstn_all2. { assert (Np : g0 :: p0 <> []) by discriminate. destruct (exists_last Np) as [p' [g ->]]. rewrite last_last. apply in_or_app. right. left. reflexivity. } pose proof (f_equal (@length _) Sk) as Sl. rewrite skipn_length in Sl. cbn [length] in *. lia. }
      assert (f0 + zlen (ci ++ oi) - 1 < k); [|unfold zlen in *; lia]. unfold all_segs in Ls. unfold open_rep in O. destruct (st_open s) as [g|].
      - destruct Ls as [Ls|Ls]; [|destruct (st_segs s); discriminate]. rewrite last_last in Ls. destruct O as [Rg _]. rewrite (sr_last _ _ _ _ Rg) in Ls. rewrite zlen_app. lia.
      - subst oi. rewrite !app_nil_r in *. destruct Ls as [Ls|Ls].
        + destruct (st_segs s) as [|g0 p0]; [rewrite (chain_nil _ _ _ C); change (zlen (@nil (Z * sent))) with 0; lia|]. assert (Np : g0 :: p0 <> []) by discriminate. destruct (exists_last Np) as [p' [g Eg]]. rewrite Eg in *. rewrite last_last in Ls. pose proof (chain_last _ _ _ _ _ C). lia.
        + rewrite Ls in C. rewrite (chain_nil _ _ _ C). change (zlen (@nil (Z * sent))) with 0. lia. }
    pose proof (loads_pieces H k k [] [] [] [] (ChNil H k) ltac:(lia) (or_introl (conj eq_refl eq_refl))) as LP. rewrite skipn_nil in LP. exact LP.
Qed.
