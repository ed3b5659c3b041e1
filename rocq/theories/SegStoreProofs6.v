From Verif Require Import Base BaseLemmas Conf ConfSpec MetaFile SegCodec Segment SegSpec SegCodecProofs SegProofs SegStore SegStoreSpec SegStoreProofs SegStoreProofs2 SegStoreProofs3 SegStoreProofs4 SegStoreProofs5.
From Coq Require Import Permutation.

Lemma firstn_prefix : forall A (l a b : list A), l = a ++ b -> firstn (length a) l = a.
Proof. intros A l a b ->. rewrite firstn_app, firstn_all, Nat.sub_diag. cbn [firstn]. apply app_nil_r. Qed.
(** A disk with the chain's items up to [a] loads the log cut there. *)
Lemma cut_items : forall first f0 k (its all a b : list (Z * sent)), its = skipn (Z.to_nat (first - f0)) all -> all = a ++ b -> f0 <= first -> first - 1 <= k -> (k < f0 + zlen a \/ k = first - 1) ->
  exists m, k <= m /\ skipn (Z.to_nat (first - f0)) a = firstn (Z.to_nat (m + 1 - first)) its.
Proof.
  intros first f0 k its all a b -> E F K L. destruct (Z_lt_le_dec (f0 + zlen a - 1) (first - 1)) as [S|S].
  - exists k. split; [lia|]. assert (k = first - 1) as -> by lia. replace (first - 1 + 1 - first) with 0 by lia. cbn [firstn]. rewrite skipn_all2 by (unfold zlen in *; lia). reflexivity.
  - exists (f0 + zlen a - 1). split; [lia|]. rewrite items_cut by lia. f_equal. replace (Z.to_nat (f0 + zlen a - 1 + 1 - f0)) with (length a) by (unfold zlen; lia). symmetry. eapply firstn_prefix; eauto.
Qed.
Lemma crash_cut : forall H s first its f0 ci oi k i, st_rep H s first its f0 ci oi -> first - 1 <= k <= st_last s -> (i <= length (all_segs s))%nat ->
  (forall g, In g (skipn i (all_segs s)) -> k < sg_first g) \/ k = first - 1 ->
  exists m, k <= m /\ loads H (disk_with (st_meta s) (firstn i (all_segs s))) first (firstn (Z.to_nat (m + 1 - first)) its).
Proof.
  intros H s first its f0 ci oi k i R K Li Hg. pose proof (sp_chain _ _ _ _ _ _ _ R) as C. pose proof (sp_open _ _ _ _ _ _ _ R) as O. pose proof (sp_low _ _ _ _ _ _ _ R) as Lo. pose proof (sp_last _ _ _ _ _ _ _ R) as La. rewrite (sp_meta _ _ _ _ _ _ _ R).
  destruct (le_gt_dec i (length (st_segs s))) as [L|L].
  - unfold all_segs in *. rewrite firstn_app. replace (i - length (st_segs s))%nat with 0%nat by lia. cbn [firstn]. rewrite skipn_app in Hg. replace (i - length (st_segs s))%nat with 0%nat in Hg by lia. cbn [skipn] in Hg.
    pose proof (firstn_skipn i (st_segs s)) as FS. pose proof C as C0. rewrite <- FS in C0. destruct (chain_split _ _ _ _ _ C0) as [ia [ib [-> [C1 C2]]]].
    assert (Kc : k < f0 + zlen ia \/ k = first - 1).
    { destruct Hg as [Hg|Hg]; [|auto]. left. destruct (skipn i (st_segs s)) as [|x l]; [|chinv C2; specialize (Hg x (or_introl eq_refl)); rewrite (sr_first _ _ _ _ Rg) in Hg; lia]. rewrite (chain_nil _ _ _ C2) in *. rewrite !app_nil_r in *. cbn [app] in Hg. unfold open_rep in O. destruct (st_open s) as [g|]; [specialize (Hg g (or_introl eq_refl)); destruct O as [Rg _]; rewrite (sr_first _ _ _ _ Rg) in Hg; lia|]. subst oi. rewrite app_nil_r in La. lia. }
    destruct (cut_items first f0 k its ((ia ++ ib) ++ oi) ia (ib ++ oi) (sp_its _ _ _ _ _ _ _ R) ltac:(rewrite app_assoc; reflexivity) ltac:(lia) ltac:(lia) Kc) as [m [Lm Em]]. exists m. split; [exact Lm|]. rewrite <- Em.
    pose proof (disk_with_pieces (Some first) (firstn i (st_segs s)) None (chain_closed _ _ _ _ C1) I) as DW. cbv iota in DW. rewrite DW. pose proof (loads_pieces H first f0 _ ia [] [] C1 Lo (or_introl (conj eq_refl eq_refl))) as LP. rewrite app_nil_r in LP. exact LP.
  - assert (i = length (all_segs s)) as ->. { unfold all_segs in *. rewrite app_length in *. destruct (st_open s); cbn [length] in *; lia. }
    rewrite firstn_all. exists (st_last s). split; [lia|]. unfold all_segs. rewrite disk_with_pieces; [|eapply chain_closed; eauto|eapply rep_open_flag; eauto].
    rewrite firstn_all2 by (pose proof (inv_len _ _ _ _ _ _ _ R); unfold zlen in *; lia). rewrite (sp_its _ _ _ _ _ _ _ R). apply loads_pieces; [exact C|exact Lo|]. apply open_rep_cut. exact O.
Qed.
Lemma keep_drop_gt : forall H f segs its k g, chain H f segs its -> In g (drop_le k segs) -> k < sg_first g.
Proof.
  intros H f segs its k g C I. pose proof (keep_drop k segs) as KD. rewrite <- KD in C. destruct (chain_split _ _ _ _ _ C) as [ia [ib [-> [C1 C2]]]]. destruct (drop_le k segs) as [|x l] eqn:E; [destruct I|]. pose proof (drop_le_head _ _ _ _ E). pose proof (chain_bounds _ _ _ _ _ C2 I). chinv C2. rewrite (sr_first _ _ _ _ Rg) in *. lia.
Qed.
Lemma crash_suffix_loads : forall H s first its k d, st_inv H s first its -> first - 1 <= k <= st_last s -> crash_suffix k s d -> exists m, k <= m /\ loads H d first (firstn (Z.to_nat (m + 1 - first)) its).
Proof.
  intros H s first its k d [f0 [ci [oi R]]] K Cr. pose proof (sp_chain _ _ _ _ _ _ _ R) as C. pose proof (sp_open _ _ _ _ _ _ _ R) as O. pose proof (sp_low _ _ _ _ _ _ _ R) as Lo. pose proof (sp_last _ _ _ _ _ _ _ R) as La. pose proof (sp_meta _ _ _ _ _ _ _ R) as Me. pose proof (sp_first _ _ _ _ _ _ _ R) as Fi. pose proof (sp_its _ _ _ _ _ _ _ R) as It. rewrite zlen_app in La.
  unfold crash_suffix, pop_back in Cr. cbv zeta in Cr.
  set (kept := keep_le k (st_segs s)) in *. set (dropped := drop_le k (st_segs s)) in *. assert (KD : st_segs s = kept ++ dropped) by (symmetry; apply keep_drop).
  destruct (match st_open s with Some g => sg_first g <=? k | None => false end) eqn:Case.
  - unfold open_rep in O. destruct (st_open s) as [g|] eqn:Eo; [|discriminate]. rewrite Case in Cr. apply Z.leb_le in Case. destruct O as [Rg Og]. cbn [st_first st_last] in Cr. rewrite Fi in Cr. pose proof (sr_first _ _ _ _ Rg) as Fg. pose proof (sr_last _ _ _ _ Rg) as Lg.
    assert (As : all_segs s = st_segs s ++ [g]) by (unfold all_segs; rewrite Eo; reflexivity).
    destruct Cr as [[j [Lj ->]]|[g0 [Eg [Tr [Lk Cr]]]]].
    + eapply crash_cut; eauto; [lia|]. cbn [length] in Lj. destruct (Z.leb_spec first k); [|right; lia]. left. replace j with 0%nat by lia. rewrite Nat.sub_0_r, skipn_all. intros x [].
    + injection Eg as <-. rewrite Tr in Cr. cbn [length] in Cr. rewrite Nat.sub_0_r, firstn_all, As, removelast_last in Cr. rewrite Me in Cr. destruct Cr as [->|[g' [Et ->]]].
      * assert (mkSeg true (sg_first g) (sg_last g) (sg_bytes g) (sg_offs g) (sg_file g) (sg_pos g) = g) as -> by (destruct g; cbn in *; congruence). rewrite <- As. rewrite <- Me. pose proof (crash_cut _ _ _ _ _ _ _ k (length (all_segs s)) R K (le_n _)) as CC. rewrite firstn_all, skipn_all in CC. apply CC. left. intros x [].
      * exists k. split; [lia|]. destruct (truncate_rep _ _ _ _ k Rg ltac:(lia)) as [g2 [Et2 [R2 O2]]]. rewrite Et in Et2. injection Et2 as <-.
        pose proof (disk_with_pieces (Some first) (st_segs s) (Some g') (chain_closed _ _ _ _ C) O2) as DW. cbv iota in DW. rewrite DW. rewrite It, items_cut by lia. rewrite firstn_app_r by lia. apply loads_pieces; [exact C|exact Lo|]. replace (k + 1 - f0 - zlen ci) with (k + 1 - (f0 + zlen ci)) by lia. apply open_rep_cut. split; auto.
  - assert (Op : match st_open s with Some g => k < sg_first g | None => True end) by (destruct (st_open s); [apply Z.leb_gt in Case; exact Case|auto]).
    assert (Shape : forall A (x y : A), (match st_open s with Some g => if sg_first g <=? k then x else y | None => y end) = y) by (intros; destruct (st_open s); [rewrite Case|]; reflexivity).
    set (popped := match st_open s with Some g => g :: rev dropped | None => rev dropped end).
    set (lst := match rev kept with [] => None | g0 :: _ => Some g0 end) in *.
    assert (Cr2 : let trunc := match lst with Some _ => (match kept with [] => k + 1 | _ :: _ => first end) <=? k | None => false end in
      let all := (length popped + match lst with Some _ => if trunc then 0 else 1 | None => 0 end)%nat in
      (exists j, (j <= all)%nat /\ d = disk_with (st_meta s) (firstn (length (all_segs s) - j) (all_segs s))) \/
      (exists g, lst = Some g /\ trunc = true /\ k < sg_last g /\
         let others := removelast (firstn (length (all_segs s) - all) (all_segs s)) in
         (d = disk_with (st_meta s) (others ++ [mkSeg true (sg_first g) (sg_last g) (sg_bytes g) (sg_offs g) (sg_file g) (sg_pos g)]) \/
          exists g', seg_truncate k g = Some g' /\ d = disk_with (st_meta s) (others ++ [g'])))).
    { cbv zeta. unfold popped. rewrite Fi in Cr. clear - Cr Case. destruct (st_open s) as [g|]; [rewrite Case in Cr|]; cbn [st_first st_last] in Cr; exact Cr. }
    clear Cr. cbv zeta in Cr2. rename Cr2 into Cr.
    assert (Len : length (all_segs s) = (length kept + length popped)%nat). { unfold all_segs, popped. rewrite KD. rewrite !app_length. destruct (st_open s); cbn [length]; rewrite rev_length; lia. }
    assert (AS : all_segs s = kept ++ (dropped ++ match st_open s with Some g => [g] | None => [] end)) by (unfold all_segs; rewrite KD, <- app_assoc; reflexivity).
    assert (Tail : forall x, In x (dropped ++ match st_open s with Some g => [g] | None => [] end) -> k < sg_first x).
    { intros x I. apply in_app_or in I. destruct I as [I|I]; [eapply keep_drop_gt; eauto|]. destruct (st_open s); [destruct I as [<-|[]]; exact Op|destruct I]. }
    assert (HC : forall i, (length kept <= i)%nat -> forall x, In x (skipn i (all_segs s)) -> k < sg_first x).
    { intros i Li x I. apply Tail. rewrite AS, skipn_app, skipn_all2 in I by lia. cbn [app] in I. rewrite <- (firstn_skipn (i - length kept) (dropped ++ _)). apply in_or_app. right. exact I. }
    destruct Cr as [[j [Lj ->]]|[g [Eg [Tr [Lk Cr]]]]].
    + eapply crash_cut; eauto; [lia|]. destruct (le_gt_dec j (length popped)) as [L|L]; [left; apply HC; lia|]. right. unfold lst in Lj. destruct (rev kept) as [|g kr] eqn:Er; [lia|]. assert (Kn : match kept with [] => k + 1 | _ :: _ => first end = first) by (destruct kept; [discriminate|reflexivity]). rewrite Kn in Lj. destruct (Z.leb_spec first k); lia.
    + rewrite Eg in *. rewrite Tr in Cr. rewrite Nat.add_0_r, Len in Cr. replace (length kept + length popped - length popped)%nat with (length kept) in Cr by lia. rewrite AS, (firstn_prefix _ _ _ _ eq_refl) in Cr.
      unfold lst in Eg. destruct (rev kept) as [|g0 kr] eqn:Er; [discriminate|]. injection Eg as ->. apply (f_equal (@rev _)) in Er. rewrite rev_involutive in Er. cbn [rev] in Er. set (kp := rev kr) in *. clearbody kp. assert (Kn : match kept with [] => k + 1 | _ :: _ => first end = first) by (rewrite Er; destruct kp; reflexivity). rewrite Kn in Tr. apply Z.leb_le in Tr.
      rewrite Er, removelast_last in Cr. rewrite KD, Er in C. destruct (chain_split _ _ _ _ _ C) as [ia [ib [Eci [Ck Cd]]]]. destruct (chain_split _ _ _ _ _ Ck) as [ik [ig [Eia [Ckp Cg]]]]. subst ia. destruct (chain_inv _ _ _ _ _ Cg) as [lg [l0 [El [Rg [Ne [Og Ct]]]]]]. rewrite (chain_nil _ _ _ Ct), app_nil_r in El. subst ig. clear Ct.
      assert (Fk : sg_first g <= k) by (apply (keep_le_in k (st_segs s)); fold kept; rewrite Er; apply in_or_app; right; left; reflexivity). pose proof (sr_first _ _ _ _ Rg) as Fg. pose proof (sr_last _ _ _ _ Rg) as Lg. rewrite Me in Cr.
      assert (All : ci ++ oi = ik ++ lg ++ (ib ++ oi)) by (rewrite Eci, <- !app_assoc; reflexivity).
      destruct Cr as [->|[g' [Et ->]]].
      * set (g2 := mkSeg true (sg_first g) (sg_last g) (sg_bytes g) (sg_offs g) (sg_file g) (sg_pos g)). assert (R2 : seg_rep H g2 (f0 + zlen ik) lg) by (destruct Rg; constructor; auto).
        destruct (cut_items first f0 k its (ci ++ oi) (ik ++ lg) (ib ++ oi) It ltac:(rewrite All, <- app_assoc; reflexivity) ltac:(lia) ltac:(lia)) as [m [Lm Em]]; [left; rewrite zlen_app; lia|]. exists m. split; [exact Lm|]. rewrite <- Em.
        pose proof (disk_with_pieces (Some first) kp (Some g2) (chain_closed _ _ _ _ Ckp) eq_refl) as DW. cbv iota in DW. rewrite DW. apply loads_pieces; [exact Ckp|exact Lo|]. apply open_rep_cut. split; [exact R2|reflexivity].
      * exists k. split; [lia|]. destruct (truncate_rep _ _ _ _ k Rg ltac:(lia)) as [g2 [Et2 [R2 O2]]]. rewrite Et in Et2. injection Et2 as <-.
        pose proof (disk_with_pieces (Some first) kp (Some g') (chain_closed _ _ _ _ Ckp) O2) as DW. cbv iota in DW. rewrite DW. rewrite It, All, items_cut by lia. rewrite firstn_app_r by lia. rewrite firstn_app_l by lia. replace (k + 1 - f0 - zlen ik) with (k + 1 - (f0 + zlen ik)) by lia. apply loads_pieces; [exact Ckp|exact Lo|]. apply open_rep_cut. split; auto.
Qed.

(** * Histories *)
Lemma map_snd_items : forall (ck : Z) (es : list sent), map snd (map (fun e => (ck, e)) es) = es.
Proof. intros. rewrite map_map. cbn [snd]. apply map_id. Qed.
Lemma step_inv : forall H max s o first its, 0 <= max -> st_inv H s first its -> legal s o -> exists s' r first' its', st_step H max s o = Some (s', r) /\ st_inv H s' first' its' /\ mkPl first' (map snd its') = pl_step (mkPl first (map snd its)) o /\
  r = match o with SAppend _ _ es => zlen es | SSuffix _ => if st_last s <? st_first s then -1 else 0 | _ => 0 end.
Proof.
  intros H max s o first its M I L. destruct o as [ck idx es|k|k|n]; cbn [st_step legal pl_step pl_first pl_ents] in *.
  - destruct L as [-> G]. destruct (append_rep' _ _ _ _ _ _ _ _ M I eq_refl G) as [s' [E I']]. exists s', (zlen es), first, (its ++ map (fun e => (ck, e)) es). rewrite map_app, map_snd_items. auto.
  - destruct I as [f0 [ci [oi R]]]. unfold st_truncate_prefix. rewrite (sp_first _ _ _ _ _ _ _ R). destruct (Z.leb_spec k first).
    + exists s, 0, first, its. sp; auto. eexists _, _, _; eauto.
    + destruct (pop_segments_rep _ _ _ _ _ _ _ k R ltac:(lia)) as [s' [p [E [I' _]]]]. rewrite E. cbn [option_map fst]. exists s', 0, k, (skipn (Z.to_nat (k - first)) its). rewrite <- skipn_map. auto.
  - destruct I as [f0 [ci [oi R]]]. pose proof (inv_len _ _ _ _ _ _ _ R) as IL. pose proof (sp_first _ _ _ _ _ _ _ R) as Fi. rewrite Fi in L. destruct (suffix_rep _ _ _ _ _ _ _ k R L) as [s' [E I']]. eexists s', _, first, (firstn (Z.to_nat (k + 1 - first)) its). sp; eauto; [rewrite firstn_map; reflexivity|]. rewrite Fi. pose proof (zlen_nonneg its). destruct (Z.eqb_spec (zlen its) 0), (Z.ltb_spec (st_last s) first); auto; lia.
  - unfold st_reset. destruct (Z.leb_spec n 0); [lia|]. eexists _, 0, n, []. sp; [reflexivity| |reflexivity|reflexivity]. exists n, [], []. constructor; cbn [st_first st_last st_segs st_open st_meta first_ok open_rep app]; auto; try lia; [constructor|rewrite skipn_nil; reflexivity|change (zlen (@nil (Z * sent))) with 0; lia].
Qed.
Lemma crash_inv : forall H max s o first its d, 0 <= max -> st_inv H s first its -> legal s o -> (forall n, o <> SReset n) -> crash_disk H max s o d -> exists first' its', loads H d first' its' /\ pl_crash (mkPl first (map snd its)) o (mkPl first' (map snd its')).
Proof.
  intros H max s o first its d M I L NR Cr. destruct o as [ck idx es|k|k|n]; cbn [legal crash_disk] in *.
  - destruct L as [-> G]. destruct Cr as [_ Cr]. destruct (crash_append_loads _ _ _ _ _ _ Cr M es _ first its eq_refl eq_refl G I) as [n Ln]. exists first, (its ++ map (fun e => (ck, e)) (firstn n es)). split; [exact Ln|]. rewrite map_app, map_snd_items. apply (PcAppend (mkPl first (map snd its))).
  - destruct (crash_prefix_loads _ _ _ _ _ _ I Cr) as [Lo|[Lk Lo]].
    + exists first, its. split; [exact Lo|]. constructor.
    + exists k, (skipn (Z.to_nat (k - first)) its). split; [exact Lo|]. pose proof (PcPrefix (mkPl first (map snd its)) k) as P. cbn [pl_step pl_first pl_ents] in P. destruct (Z.leb_spec k first); [lia|]. rewrite skipn_map in P. exact P.
  - assert (Fi : st_first s = first) by (destruct I as [? [? [? R]]]; apply R). rewrite Fi in L. destruct (crash_suffix_loads _ _ _ _ _ _ I L Cr) as [m [Lm Lo]]. exists first, (firstn (Z.to_nat (m + 1 - first)) its). split; [exact Lo|]. rewrite <- firstn_map. apply (PcSuffix (mkPl first (map snd its))). exact Lm.
  - exfalso. eapply NR; eauto.
Qed.
Lemma reached_inv : forall H max h s, 0 <= max -> reached H max h s -> exists first its, st_inv H s first its /\ allows h (mkPl first (map snd its)).
Proof.
  intros H max h s M R. induction R as [rc d s c Em Ei|h s o s' r R IH L E|h s rc d s' c R IH Sf E|h s o rc d d' s' c R IH L NR Cr Sf E].
  - exists 1, []. unfold st_init in Ei. rewrite Em in Ei. injection Ei as <- _. split; [|constructor]. exists 1, [], []. constructor; cbn [st_first st_last st_segs st_open st_meta first_ok open_rep app]; auto; try lia; constructor.
  - destruct IH as [first [its [I A]]]. destruct (step_inv _ _ _ o _ _ M I L) as [s2 [r2 [f2 [i2 [E2 [I2 [P2 _]]]]]]]. rewrite E in E2. injection E2 as <- <-. exists f2, i2. split; [exact I2|]. rewrite P2. constructor. exact A.
  - destruct IH as [first [its [I A]]]. pose proof I as I0. destruct I0 as [f0 [ci [oi Rp]]]. destruct (loads_self _ _ _ _ _ _ _ Rp rc d Sf) as [s2 [c2 [E2 [I2 _]]]]. rewrite E in E2. injection E2 as <- _. exists first, its. split; [exact I2|constructor; exact A].
  - destruct IH as [first [its [I A]]]. destruct (crash_inv _ _ _ _ _ _ _ M I L NR Cr) as [f2 [i2 [Lo P2]]]. destruct (Lo rc d' Sf) as [s2 [c2 [E2 [I2 _]]]]. rewrite E in E2. injection E2 as <- _. exists f2, i2. split; [exact I2|]. econstructor; eauto.
Qed.

(** * A hole between closed segments is detected at start *)
Definition ckey (y : Z * Z * list Z) : Z := fst (fst y).
Lemma covered_rest : forall first l last k e, check_closed first last l = Some (k, e) -> 0 <= last ->
  forall f g b i, In (f, g, b) l -> last < i < f -> exists f' g' b', In (f', g', b') l /\ f' <= i <= g'.
Proof.
  intros first. induction l as [|[[f0 g0] b0] l IH]; intros last k e H Hl f g b i HI Hi; [destruct HI|].
  cbn [check_closed] in H. destruct (Z.ltb_spec g0 f0) as [|Hg]; [discriminate|].
  destruct (Z.eqb_spec last (-1)) as [|_]; [lia|]. cbn [negb andb] in H.
  destruct (Z.eqb_spec f0 (last + 1)) as [E|]; [|discriminate]. cbn [negb] in H.
  destruct (check_closed first g0 l) as [[k1 e1]|] eqn:C; [|discriminate].
  destruct HI as [HI|HI]; [injection HI as -> -> ->; lia|].
  destruct (Z.le_gt_cases i g0) as [L|L].
  - exists f0, g0, b0. split; [left; auto|lia].
  - destruct (IH g0 _ _ C ltac:(lia) f g b i HI ltac:(lia)) as (f' & g' & b' & A & B). exists f', g', b'. split; [right|]; auto.
Qed.
Lemma covered_first : forall first l k e, check_closed first (-1) l = Some (k, e) -> 1 <= first ->
  forall f g b i, In (f, g, b) l -> first <= i < f -> exists f' g' b', In (f', g', b') l /\ f' <= i <= g'.
Proof.
  intros first. induction l as [|[[f0 g0] b0] l IH]; intros k e H Hl f g b i HI Hi; [destruct HI|].
  cbn [check_closed] in H. destruct (Z.ltb_spec g0 f0) as [|Hg]; [discriminate|].
  change (-1 =? -1) with true in H. cbn [negb andb] in H.
  destruct (Z.ltb_spec first f0) as [|Hf]; [discriminate|].
  destruct (Z.ltb_spec g0 first) as [Hd|Hd].
  - destruct HI as [HI|HI]; [injection HI as -> -> ->; lia|].
    destruct (IH _ _ H Hl f g b i HI Hi) as (f' & g' & b' & A & B). exists f', g', b'. split; [right|]; auto.
  - destruct (check_closed first g0 l) as [[k1 e1]|] eqn:C; [|discriminate].
    destruct HI as [HI|HI]; [injection HI as -> -> ->; lia|].
    destruct (Z.le_gt_cases i g0) as [L|L]; [exists f0, g0, b0; split; [left; auto|lia]|].
    destruct (covered_rest _ _ _ _ _ C ltac:(lia) f g b i HI ltac:(lia)) as (f' & g' & b' & A & B). exists f', g', b'. split; [right|]; auto.
Qed.
Lemma map_set_in : forall {A} (key : A -> Z) x l y, In y (map_set key x l) -> y = x \/ In y l.
Proof.
  intros A key x. induction l as [|z l IH]; intros y H; cbn [map_set] in H.
  - destruct H as [->|[]]; auto.
  - destruct (key x <? key z); [destruct H as [->|H]; auto|].
    destruct (key x =? key z); [destruct H as [->|H]; auto; right; right; auto|].
    destruct H as [->|H]; [right; left; auto|]. destruct (IH _ H); auto. right; right; auto.
Qed.
Lemma map_set_has : forall {A} (key : A -> Z) x l, In x (map_set key x l).
Proof.
  intros A key x. induction l as [|z l IH]; cbn [map_set]; [left; auto|].
  destruct (key x <? key z); [left; auto|]. destruct (key x =? key z); [left; auto|right; auto].
Qed.
Lemma map_set_keeps : forall {A} (key : A -> Z) x l y, In y l -> exists y', In y' (map_set key x l) /\ key y' = key y.
Proof.
  intros A key x. induction l as [|z l IH]; intros y H; [destruct H|]. cbn [map_set].
  destruct (key x <? key z); [exists y; split; [right; auto|auto]|].
  destruct (Z.eqb_spec (key x) (key z)) as [E|].
  - destruct H as [->|H]; [exists x; split; [left; auto|auto]|exists y; split; [right; auto|auto]].
  - destruct H as [->|H]; [exists y; split; [left; auto|auto]|]. destruct (IH _ H) as (y' & I & K). exists y'. split; [right; auto|auto].
Qed.
Lemma fold_set_in : forall (key : Z * Z * list Z -> Z) l m y, In y (fold_left (fun m x => map_set key x m) l m) -> In y l \/ In y m.
Proof.
  intros key. induction l as [|x l IH]; intros m y H; cbn [fold_left] in H; auto.
  destruct (IH _ _ H) as [|K]; [left; right; auto|]. destruct (map_set_in _ _ _ _ K) as [->|]; auto. left; left; auto.
Qed.
Lemma fold_set_has : forall (key : Z * Z * list Z -> Z) l m y, In y l \/ In y m -> exists y', In y' (fold_left (fun m x => map_set key x m) l m) /\ key y' = key y.
Proof.
  intros key. induction l as [|x l IH]; intros m y H; cbn [fold_left].
  - destruct H as [[]|H]. exists y. auto.
  - destruct H as [[->|H]|H].
    + apply IH. right. apply map_set_has.
    + apply IH. auto.
    + destruct (map_set_keeps key x m y H) as (y' & I & K). rewrite <- K. apply IH. auto.
Qed.
Lemma no_hole_between_closed : forall H rc d first s c, dk_meta d = Some first -> 1 <= first -> st_init H rc d = Some (Some (s, c)) ->
  forall f g b i, In (f, g, b) (dk_closed d) -> first <= i < f -> exists f' g' b', In (f', g', b') (dk_closed d) /\ f' <= i <= g'.
Proof.
  intros H rc d first s c Hm Hf Hi f g b i HI Hr. unfold st_init in Hi. rewrite Hm in Hi.
  set (m := fold_left (fun m x => map_set (fun y => fst (fst y)) x m) (dk_closed d) []) in *.
  assert (C : exists k e, check_closed first (-1) m = Some (k, e)).
  { destruct (dk_open d) as [|[? ?] [|? ?]]; try discriminate;
      destruct (check_closed first (-1) m) as [[k e]|]; try discriminate; eauto. }
  destruct C as (k & e & C).
  destruct (fold_set_has (fun y => fst (fst y)) (dk_closed d) [] (f, g, b) (or_introl HI)) as ([[f1 g1] b1] & I1 & K1).
  cbn [fst] in K1. subst f1.
  destruct (covered_first _ _ _ _ C Hf _ _ _ i I1 Hr) as (f' & g' & b' & A & B).
  exists f', g', b'. split; auto. destruct (fold_set_in _ _ _ _ A) as [|[]]; auto.
Qed.
