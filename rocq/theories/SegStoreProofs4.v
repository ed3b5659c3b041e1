From Verif Require Import Base BaseLemmas Conf ConfSpec MetaFile SegCodec Segment SegSpec SegCodecProofs SegProofs SegStore SegStoreSpec SegStoreProofs SegStoreProofs2 SegStoreProofs3.
From Coq Require Import Permutation.

(** * truncate_suffix *)
Lemma erase_last : forall H f segs g its, chain H f (segs ++ [g]) its -> erase_seg (sg_first g) (segs ++ [g]) = segs.
Proof.
  intros H f segs g its C. destruct (chain_split _ _ _ _ _ C) as [ia [ib [-> [C1 C2]]]]. unfold erase_seg. rewrite filter_app. cbn [filter]. rewrite Z.eqb_refl. cbn [negb]. rewrite app_nil_r.
  chinv C2. rewrite (sr_first _ _ _ _ Rg). assert (forall x, In x segs -> sg_first x <> f + zlen ia) by (intros x I; pose proof (chain_bounds _ _ _ _ _ C1 I); lia). clear -H0. induction segs as [|x segs IH]; [reflexivity|]. cbn [filter]. destruct (Z.eqb_spec (sg_first x) (f + zlen ia)) as [E|E]; [exfalso; eapply H0; [left; reflexivity|exact E]|]. cbn [negb]. f_equal. apply IH. intros. apply H0. right. auto.
Qed.
Lemma items_cut : forall A (all : list A) first f0 k, f0 <= first -> first - 1 <= k -> firstn (Z.to_nat (k + 1 - first)) (skipn (Z.to_nat (first - f0)) all) = skipn (Z.to_nat (first - f0)) (firstn (Z.to_nat (k + 1 - f0)) all).
Proof. intros. rewrite firstn_skipn_comm. f_equal. f_equal. lia. Qed.
Lemma firstn_app_l : forall A (a b : list A) n, 0 <= n <= zlen a -> firstn (Z.to_nat n) (a ++ b) = firstn (Z.to_nat n) a.
Proof. intros A a b n L. rewrite firstn_app. replace (Z.to_nat n - length a)%nat with 0%nat by (unfold zlen in L; lia). cbn [firstn]. apply app_nil_r. Qed.
Lemma firstn_app_r : forall A (a b : list A) n, zlen a <= n -> firstn (Z.to_nat n) (a ++ b) = a ++ firstn (Z.to_nat (n - zlen a)) b.
Proof. intros A a b n L. rewrite firstn_app, firstn_all2 by (unfold zlen in L; lia). f_equal. f_equal. unfold zlen in *. lia. Qed.
Lemma empty_rep : forall H first all f0, 1 <= f0 <= first -> st_rep H (mkSt first (first - 1) [] None (Some first)) first (skipn (Z.to_nat (first - f0)) (firstn (Z.to_nat (first - f0)) all)) first [] [].
Proof.
  intros. constructor; cbn [st_segs st_open st_first st_last st_meta first_ok open_rep app]; auto; try lia; [constructor| |change (zlen (@nil (Z * sent))) with 0; lia]. rewrite skipn_nil. apply skipn_all2. apply firstn_le_length.
Qed.
Lemma seg_truncate_same : forall k g, sg_last g <= k -> seg_truncate k g = Some g.
Proof. intros k g L. unfold seg_truncate. destruct (Z.leb_spec (sg_last g) k); [reflexivity|lia]. Qed.
Lemma truncate_closed_open : forall k g g', seg_truncate k g = Some g' -> k < sg_last g -> sg_open g' = true.
Proof. intros k g g' E L. unfold seg_truncate in E. destruct (Z.leb_spec (sg_last g) k); [lia|]. destruct (znth _ _) as [[a b]|]; [|discriminate]. injection E as <-. reflexivity. Qed.

Lemma suffix_rep : forall H s first its f0 ci oi k, st_rep H s first its f0 ci oi -> first - 1 <= k <= st_last s ->
  exists s', st_truncate_suffix k s = Some (s', if zlen its =? 0 then -1 else 0) /\ st_inv H s' first (firstn (Z.to_nat (k + 1 - first)) its).
Proof.
  intros H s first its f0 ci oi k R K. pose proof (sp_chain _ _ _ _ _ _ _ R) as C. pose proof (sp_open _ _ _ _ _ _ _ R) as O. pose proof (sp_last _ _ _ _ _ _ _ R) as La. pose proof (sp_low _ _ _ _ _ _ _ R) as Lo. pose proof (sp_ok _ _ _ _ _ _ _ R) as OK. pose proof (sp_meta _ _ _ _ _ _ _ R) as Me. pose proof (sp_first _ _ _ _ _ _ _ R) as Fi.
  pose proof (inv_len _ _ _ _ _ _ _ R) as IL. assert (IT : firstn (Z.to_nat (k + 1 - first)) its = skipn (Z.to_nat (first - f0)) (firstn (Z.to_nat (k + 1 - f0)) (ci ++ oi))) by (rewrite (sp_its _ _ _ _ _ _ _ R); apply items_cut; lia). rewrite IT. clear IT. rewrite zlen_app in La. pose proof (zlen_nonneg ci). pose proof (zlen_nonneg oi).
  unfold st_truncate_suffix, pop_back. cbv zeta. rewrite Fi, Me.
  set (kept := keep_le k (st_segs s)). set (dropped := drop_le k (st_segs s)). assert (KD : st_segs s = kept ++ dropped) by (symmetry; apply keep_drop).
  destruct (match st_open s with Some g => sg_first g <=? k | None => false end) eqn:Case.
  - unfold open_rep in O. destruct (st_open s) as [g|]; [|discriminate]. rewrite Case. apply Z.leb_le in Case. destruct O as [Rg Og]. cbn [st_first st_last st_open st_segs st_meta]. pose proof (sr_first _ _ _ _ Rg) as Fg. pose proof (sr_last _ _ _ _ Rg) as Lg.
    destruct (Z.leb_spec first k).
    + assert (NE : (zlen its =? 0) = false) by (apply Z.eqb_neq; lia). rewrite NE. rewrite Og. cbn [negb andb].
      assert (exists g', seg_truncate k g = Some g' /\ seg_rep H g' (f0 + zlen ci) (firstn (Z.to_nat (k + 1 - (f0 + zlen ci))) oi) /\ sg_open g' = true) as [g' [Et [R' O']]].
      { destruct (Z_le_gt_dec (sg_last g) k); [|apply truncate_rep; auto; lia]. exists g. split; [apply seg_truncate_same; lia|]. split; [|exact Og]. rewrite firstn_all2 by (unfold zlen in *; lia). exact Rg. }
      rewrite Et. eexists. split; [reflexivity|]. exists f0, ci, (firstn (Z.to_nat (k + 1 - (f0 + zlen ci))) oi). pose proof (sr_last _ _ _ _ R') as L'.
      assert (ZF : zlen (firstn (Z.to_nat (k + 1 - (f0 + zlen ci))) oi) = k + 1 - (f0 + zlen ci)) by (unfold zlen in *; rewrite firstn_length; lia).
      constructor; cbn [st_first st_last st_open st_segs st_meta]; auto; try lia.
      * split; [exact R'|exact O'].
      * rewrite firstn_app_r by lia. f_equal. f_equal. f_equal. f_equal. lia.
      * rewrite zlen_app. lia.
      * unfold first_ok in *. destruct (st_segs s); [lia|exact OK].
    + assert (Ek : k = first - 1) by lia. assert (Es : st_segs s = []).
      { destruct (st_segs s) as [|x l] eqn:Es; [reflexivity|]. cbn [first_ok] in OK. pose proof (chain_bounds _ _ _ _ x C (or_introl eq_refl)). lia. }
      rewrite Z.eqb_refl, Es. cbn [erase_seg filter]. assert (NE : (zlen its =? 0) = false) by (apply Z.eqb_neq; rewrite Es in *; cbn [first_ok] in OK; lia). rewrite NE. eexists. split; [reflexivity|]. eexists _, _, _. subst k. replace (first - 1 + 1 - f0) with (first - f0) by lia. apply empty_rep. lia.
  - assert (Lk : k < f0 + zlen ci).
    { unfold open_rep in O. destruct (st_open s) as [g|]; [destruct O as [Rg _]; rewrite (sr_first _ _ _ _ Rg) in Case; apply Z.leb_gt in Case; lia|]. subst oi. change (zlen (@nil (Z * sent))) with 0 in *. lia. }
    assert (Shape : (match st_open s with
       | Some g => if sg_first g <=? k then (mkSt first k (st_segs s) (st_open s) (Some first), [], Some g)
                   else (mkSt (match kept with [] => k + 1 | _ :: _ => first end) k kept None (Some first), g :: rev dropped, match rev kept with [] => None | g0 :: _ => Some g0 end)
       | None => (mkSt (match kept with [] => k + 1 | _ :: _ => first end) k kept None (Some first), rev dropped, match rev kept with [] => None | g0 :: _ => Some g0 end) end) =
       (mkSt (match kept with [] => k + 1 | _ :: _ => first end) k kept None (Some first), match st_open s with Some g => g :: rev dropped | None => rev dropped end, match rev kept with [] => None | g0 :: _ => Some g0 end)).
    { destruct (st_open s) as [g|]; [rewrite Case|]; reflexivity. }
    rewrite Shape. clear Shape. destruct (rev kept) as [|g kr] eqn:Er.
    + apply (f_equal (@rev _)) in Er. rewrite rev_involutive in Er. cbn [rev] in Er. rewrite Er. assert (Kf : k = first - 1 /\ f0 = first).
      { destruct (st_segs s) as [|x l] eqn:Es.
        - unfold kept in Er. rewrite (chain_nil _ _ _ C) in *. change (zlen (@nil (Z * sent))) with 0 in *. lia.
        - rewrite Er in KD. cbn [app] in KD. symmetry in KD. unfold dropped in KD. apply drop_le_head in KD. chinv C. rewrite (sr_first _ _ _ _ Rg) in KD. lia. }
      destruct Kf as [-> ->]. eexists. split; [|eexists _, _, _; replace (first - 1 + 1 - first) with (first - first) by lia; replace (first - 1 + 1) with first by lia; apply empty_rep; lia].
      f_equal. f_equal; [f_equal; lia|]. rewrite Er in KD. cbn [app] in KD. rewrite <- KD. destruct (st_open s) as [g|].
      * assert (NE : (zlen its =? 0) = false); [|rewrite NE; reflexivity]. apply Z.eqb_neq. unfold first_ok in OK. destruct (st_segs s) as [|x l]; [destruct O as [Rg _]; rewrite (sr_last _ _ _ _ Rg) in OK; lia|]. pose proof (chain_bounds _ _ _ _ x C (or_introl eq_refl)). lia.
      * cbn [open_rep] in O. subst oi. change (zlen (@nil (Z * sent))) with 0 in *. destruct (st_segs s) as [|x l] eqn:Es.
        -- rewrite (chain_nil _ _ _ C) in *. change (zlen (@nil (Z * sent))) with 0 in *. destruct (Z.eqb_spec (zlen its) 0); [reflexivity|lia].
        -- assert (NE : (zlen its =? 0) = false); [|rewrite NE; destruct (rev (x :: l)) eqn:Erx; [apply (f_equal (@rev _)) in Erx; rewrite rev_involutive in Erx; discriminate|reflexivity]]. apply Z.eqb_neq. cbn [first_ok] in OK. pose proof (chain_bounds _ _ _ _ x C (or_introl eq_refl)). lia.
    + apply (f_equal (@rev _)) in Er. rewrite rev_involutive in Er. cbn [rev] in Er. set (kp := rev kr) in *.
      assert (Ig : In g kept) by (rewrite Er; apply in_or_app; right; left; reflexivity). pose proof (keep_le_in _ _ _ Ig) as Fgk. assert (Kne : match kept with [] => k + 1 | _ :: _ => first end = first) by (destruct kept; [destruct Ig|reflexivity]). rewrite Kne. clear Kne. cbn [st_first st_last st_open st_segs st_meta].
      rewrite KD, Er in C. destruct (chain_split _ _ _ _ _ C) as [ia [ib [Eci [Ck Cd]]]]. subst ci. destruct (chain_split _ _ _ _ _ Ck) as [ik [ig [Eia [Ckp Cg]]]]. subst ia. pose proof (chain_last _ _ _ _ _ Ck) as Lg. chinv Cg. rewrite (chain_nil _ _ _ Ct) in *. rewrite app_nil_r in *. rename l into lg. pose proof (sr_first _ _ _ _ Rg) as Fg. rewrite !zlen_app in *. pose proof (zlen_nonneg ik). pose proof (zlen_pos _ _ Ne) as Plg. pose proof (zlen_nonneg ib).
      assert (Lkg : k <= sg_last g).
      { destruct dropped as [|x l] eqn:Ed; [rewrite (chain_nil _ _ _ Cd) in *; change (zlen (@nil (Z * sent))) with 0 in *; lia|]. unfold dropped in Ed. apply drop_le_head in Ed. destruct (chain_inv _ _ _ _ _ Cd) as [? [? [_ [Rx _]]]]. rewrite (sr_first _ _ _ _ Rx) in Ed. lia. }
      assert (NE : (zlen its =? 0) = false).
      { apply Z.eqb_neq. unfold first_ok in OK. destruct (st_segs s) as [|x l] eqn:Es; [destruct kept; [destruct Ig|discriminate]|]. assert (Ix : In x ((kp ++ [g]) ++ dropped)) by (rewrite <- Er, <- KD; left; reflexivity). pose proof (chain_bounds _ _ _ _ x C Ix). rewrite !zlen_app in *. lia. }
      rewrite NE.
      assert (HD : forall rest, match kp with [] => True | x :: _ => first_ok first (kp ++ rest) None end).
      { intros rest. unfold first_ok in *. rewrite KD, Er in OK. destruct kp; [auto|]. cbn [app] in *. exact OK. }
      destruct (Z.leb_spec first k).
      * rewrite Og. cbn [negb andb]. destruct (Z_lt_le_dec k (sg_last g)) as [L|L].
        -- destruct (truncate_rep _ _ _ _ k Rg ltac:(lia)) as [g' [Et [R' O']]]. rewrite Et, O'. rewrite Er, (erase_last _ _ _ _ _ Ck). eexists. split; [reflexivity|]. pose proof (sr_last _ _ _ _ R') as L'.
           set (cut := firstn (Z.to_nat (k + 1 - (f0 + zlen ik))) lg) in *. assert (ZF : zlen cut = k + 1 - (f0 + zlen ik)) by (unfold cut, zlen in *; rewrite firstn_length; lia).
           exists f0, ik, cut. constructor; cbn [st_first st_last st_open st_segs st_meta]; auto; try lia.
           ++ split; [exact R'|exact O'].
           ++ f_equal. rewrite <- !app_assoc, firstn_app_r by lia. rewrite firstn_app_l by lia. f_equal. unfold cut. f_equal. f_equal. lia.
           ++ rewrite zlen_app. lia.
           ++ specialize (HD []). rewrite app_nil_r in HD. unfold first_ok in *. destruct kp as [|x l]; [lia|exact HD].
        -- rewrite seg_truncate_same by lia. rewrite Og. eexists. split; [reflexivity|]. exists f0, (ik ++ lg), []. constructor; cbn [st_first st_last st_open st_segs st_meta]; auto; try lia.
           ++ rewrite Er. exact Ck.
           ++ reflexivity.
           ++ f_equal. rewrite <- (app_assoc (ik ++ lg)). rewrite firstn_app_r by (rewrite !zlen_app in *; lia). f_equal. replace (Z.to_nat (k + 1 - f0 - zlen (ik ++ lg))) with 0%nat by (rewrite !zlen_app in *; lia). reflexivity.
           ++ rewrite app_nil_r, zlen_app. lia.
           ++ rewrite Er. specialize (HD [g]). unfold first_ok in *. destruct kp as [|x l]; [cbn [app]; lia|exact HD].
      * assert (Ek : k = first - 1) by lia. assert (kp = []) as Ekp.
        { destruct kp as [|x l]; [reflexivity|]. specialize (HD []). cbn [app first_ok] in HD. pose proof (chain_bounds _ _ _ _ x Ckp (or_introl eq_refl)). lia. }
        rewrite Er, (erase_last _ _ _ _ _ Ck), Ekp. eexists. split; [reflexivity|]. eexists _, _, _. subst k. replace (first - 1 + 1 - f0) with (first - f0) by lia. apply empty_rep. lia.
Qed.
