From Verif Require Import Base BaseLemmas Conf ConfSpec MetaFile SegCodec Segment SegSpec SegCodecProofs SegProofs SegStore SegStoreSpec SegStoreProofs SegStoreProofs2.
From Coq Require Import Permutation.

Lemma skipn_skipn' : forall A (l : list A) a b, skipn a (skipn b l) = skipn (b + a) l.
Proof. intros A l a b. revert l. induction b as [|b IH]; intros l; [reflexivity|]. destruct l; [rewrite !skipn_nil; reflexivity|]. apply IH. Qed.
(** * append *)
Lemma open_pieces : forall H max s first its f0 ci oi s1 g, 0 <= max -> st_rep H s first its f0 ci oi -> open_segment max s = (s1, g) ->
  exists ci' oi', ci' ++ oi' = ci ++ oi /\ chain H f0 (st_segs s1) ci' /\ st_open s1 = Some g /\ seg_rep H g (f0 + zlen ci') oi' /\ sg_open g = true /\
    st_first s1 = st_first s /\ st_last s1 = st_last s /\ st_meta s1 = st_meta s /\ match st_segs s1 with x :: _ => first <= sg_last x | [] => True end.
Proof.
  intros H max s first its f0 ci oi s1 g M R E. pose proof (sp_chain _ _ _ _ _ _ _ R) as C. pose proof (sp_open _ _ _ _ _ _ _ R) as O. pose proof (sp_last _ _ _ _ _ _ _ R) as La. pose proof (sp_ok _ _ _ _ _ _ _ R) as OK.
  unfold open_segment in E. unfold open_rep in O. destruct (st_open s) as [g0|] eqn:Eo.
  - destruct O as [R0 O0]. destruct (Z.ltb_spec max (sg_bytes g0)).
    + injection E as <- <-. cbn [st_segs st_open st_first st_last st_meta]. exists (ci ++ oi), []. rewrite app_nil_r.
      assert (Noi : oi <> []) by (intros ->; rewrite (sr_bytes _ _ _ _ R0) in *; change (bytes_of H []) with (@nil Z) in *; change (zlen (@nil Z)) with 0 in *; lia).
      assert (Ms : map_set sg_first (seg_close g0) (st_segs s) = st_segs s ++ [seg_close g0]).
      { apply map_set_end. intros y I. destruct (chain_bounds _ _ _ _ _ C I) as [_ [B1 [B2 _]]]. cbn [seg_close sg_first]. rewrite (sr_first _ _ _ _ R0). lia. }
      rewrite Ms. sp; auto.
      * apply chain_app; [exact C|]. rewrite <- (app_nil_r oi). econstructor; [apply close_rep; exact R0|exact Noi|reflexivity|constructor].
      * rewrite La. replace (f0 + zlen (ci ++ oi) - 1 + 1) with (f0 + zlen (ci ++ oi)) by lia. apply create_rep.
      * unfold first_ok in OK. destruct (st_segs s); cbn [app]; exact OK.
    + injection E as <- <-. exists ci, oi. cbn [st_segs st_open st_first st_last st_meta]. sp; auto. unfold first_ok in OK. destruct (st_segs s); auto.
  - subst oi. cbn [sg_bytes seg_create] in E. destruct (Z.ltb_spec max 0); [lia|]. injection E as <- <-. cbn [st_segs st_open st_first st_last st_meta]. exists ci, []. sp; auto.
    + rewrite La, app_nil_r. replace (f0 + zlen ci - 1 + 1) with (f0 + zlen ci) by lia. apply create_rep.
Qed.
Lemma pieces_last : forall (f0 : Z) (ci oi ci' oi' : list (Z * sent)), ci' ++ oi' = ci ++ oi -> zlen (ci ++ oi) = zlen ci' + zlen oi'.
Proof. intros. rewrite <- H, zlen_app. reflexivity. Qed.
Lemma append_one : forall H ck max s first its f0 ci oi idx e s1 g, 0 <= max -> st_rep H s first its f0 ci oi -> idx = st_last s + 1 -> good_item (ck, e) -> open_segment max s = (s1, g) ->
  exists g' ci' oi', seg_append H ck idx e None g = Some (g', 0) /\ st_rep H (mkSt (st_first s1) (st_last s1 + 1) (st_segs s1) (Some g') (st_meta s1)) first (its ++ [(ck, e)]) f0 ci' oi'.
Proof.
  intros H ck max s first its f0 ci oi idx e s1 g M R Ei G E. destruct (open_pieces _ _ _ _ _ _ _ _ _ _ M R E) as [ci' [oi' [Eq [C [Eo [Rg [Og [Ef [El [Em OK]]]]]]]]]].
  pose proof (sp_last _ _ _ _ _ _ _ R) as La. pose proof (sp_low _ _ _ _ _ _ _ R) as Lo. pose proof (sp_high _ _ _ _ _ _ _ R) as Hi. pose proof (pieces_last f0 _ _ _ _ Eq) as PL.
  assert (Ix : idx = sg_last g + 1) by (rewrite (sr_last _ _ _ _ Rg); lia). rewrite Ix. destruct (append_rep _ _ _ _ _ _ Rg Og G) as [g' [Ea [R' O']]]. exists g', ci', (oi' ++ [(ck, e)]). split; [exact Ea|].
  assert (ZA : zlen (ci' ++ oi' ++ [(ck, e)]) = zlen (ci ++ oi) + 1) by (rewrite !zlen_app; rewrite zlen_app in PL; change (zlen [(ck, e)]) with 1; lia).
  constructor; cbn [st_segs st_open st_first st_last st_meta]; auto; try lia.
  - split; [exact R'|exact O'].
  - rewrite app_assoc, Eq, (sp_its _ _ _ _ _ _ _ R). rewrite (skipn_app _ (ci ++ oi) [(ck, e)]). f_equal. replace (Z.to_nat (first - f0) - length (ci ++ oi))%nat with 0%nat by (unfold zlen in *; lia). reflexivity.
  - rewrite Ef. apply R.
  - rewrite Em. apply R.
  - unfold first_ok. destruct (st_segs s1) as [|x l]; [|exact OK]. rewrite (sr_last _ _ _ _ R'), zlen_app. change (zlen [(ck, e)]) with 1. lia.
Qed.
Lemma append_loop_rep : forall H ck max es s first its idx, 0 <= max -> st_inv H s first its -> idx = st_last s + 1 -> Forall (fun e => good_item (ck, e)) es ->
  exists s', append_loop H ck max (number idx es) s = Some (s', zlen es) /\ st_inv H s' first (its ++ map (fun e => (ck, e)) es).
Proof.
  intros H ck max. induction es as [|e es IH]; intros s first its idx M I Ei G.
  - exists s. rewrite app_nil_r. auto.
  - inversion G as [|? ? G1 G2]; subst. destruct I as [f0 [ci [oi R]]]. cbn [number append_loop]. destruct (open_segment max s) as [s1 g] eqn:E.
    destruct (append_one _ _ _ _ _ _ _ _ _ _ _ _ _ M R eq_refl G1 E) as [g' [ci' [oi' [Ea R']]]]. rewrite Ea. change (negb (0 =? 0)) with false. cbv iota.
    assert (Els : st_last s1 = st_last s) by (destruct (open_pieces _ _ _ _ _ _ _ _ _ _ M R E) as [? [? [_ [_ [_ [_ [_ [_ [El _]]]]]]]]]; exact El).
    edestruct (IH (mkSt (st_first s1) (st_last s1 + 1) (st_segs s1) (Some g') (st_meta s1)) first (its ++ [(ck, e)]) (st_last s + 1 + 1)) as [s' [E' I']]; auto.
    + eexists _, _, _. exact R'.
    + cbn [st_last]. lia.
    + rewrite E'. exists s'. rewrite zlen_cons. split; [reflexivity|]. rewrite <- app_assoc in I'. exact I'.
Qed.
Lemma append_rep' : forall H ck max s first its es idx, 0 <= max -> st_inv H s first its -> idx = st_last s + 1 -> Forall (fun e => good_item (ck, e)) es ->
  exists s', st_append H ck max (number idx es) s = Some (s', zlen es) /\ st_inv H s' first (its ++ map (fun e => (ck, e)) es).
Proof.
  intros H ck max s first its es idx M I Ei G. destruct es as [|e es]; [exists s; rewrite app_nil_r; auto|]. destruct (append_loop_rep _ _ _ _ _ _ _ _ M I Ei G) as [s' [E I']]. exists s'. split; [|exact I']. cbn [number] in *. unfold st_append. rewrite Ei, Z.eqb_refl. cbn [negb]. rewrite Ei in E. exact E.
Qed.

(** * truncate_prefix *)
Lemma pop_segments_rep : forall H s first its f0 ci oi k, st_rep H s first its f0 ci oi -> first < k ->
  exists s' p, pop_segments k (with_meta k s) = Some (s', p) /\ st_inv H s' k (skipn (Z.to_nat (k - first)) its) /\ exists rest, all_segs s = p ++ rest /\ (forall g, In g p -> sg_last g < k).
Proof.
  intros H s first its f0 ci oi k R K. pose proof (sp_chain _ _ _ _ _ _ _ R) as C. pose proof (sp_open _ _ _ _ _ _ _ R) as O. pose proof (sp_last _ _ _ _ _ _ _ R) as La. pose proof (sp_low _ _ _ _ _ _ _ R) as Lo.
  assert (Its : skipn (Z.to_nat (k - first)) its = skipn (Z.to_nat (k - f0)) (ci ++ oi)).
  { rewrite (sp_its _ _ _ _ _ _ _ R). rewrite skipn_skipn'. f_equal. lia. }
  rewrite Its. clear Its. unfold pop_segments. cbn [with_meta st_segs st_open st_meta st_last]. destruct (pop_front_chain H k _ _ _ C) as [p [r [ip [ir [Ep [Es [Ei [Cp [Cr [Pp Pr]]]]]]]]]]. rewrite Ep. subst ci.
  assert (Lp : zlen ip <= k - f0).
  { destruct p as [|g0 p0]; [rewrite (chain_nil _ _ _ Cp); change (zlen (@nil (Z * sent))) with 0; lia|]. assert (Np : g0 :: p0 <> []) by discriminate. destruct (exists_last Np) as [p' [g Eg]]. rewrite Eg in *. pose proof (chain_last _ _ _ _ _ Cp). specialize (Pp g ltac:(apply in_or_app; right; left; reflexivity)). lia. }
  pose proof (zlen_nonneg ip). pose proof (zlen_nonneg ir). pose proof (zlen_nonneg oi). rewrite !zlen_app in La. rewrite zlen_app in O.
  assert (Sk : skipn (Z.to_nat (k - f0)) ((ip ++ ir) ++ oi) = skipn (Z.to_nat (k - (f0 + zlen ip))) (ir ++ oi)).
  { rewrite <- app_assoc, skipn_drop by lia. f_equal. f_equal. lia. }
  rewrite Sk. clear Sk.
  destruct r as [|gr r'].
  - rewrite (chain_nil _ _ _ Cr) in *. cbn [app] in *. change (zlen (@nil (Z * sent))) with 0 in *. rewrite app_nil_r in Es. unfold open_rep in O. unfold all_segs. rewrite Es. destruct (st_open s) as [g|].
    + destruct O as [Rg Og]. pose proof (sr_last _ _ _ _ Rg) as Lg. rewrite (sr_first _ _ _ _ Rg). destruct (Z.ltb_spec (sg_last g) k).
      * eexists _, _. split; [reflexivity|]. split.
        -- exists k, [], []. constructor; cbn [st_segs st_open st_first st_last st_meta first_ok open_rep app]; auto; try lia; [constructor| |change (zlen (@nil (Z * sent))) with 0; lia]. rewrite skipn_nil. apply skipn_all2. unfold zlen in *. lia.
        -- exists []. rewrite app_nil_r. split; [reflexivity|]. intros x I. apply in_app_or in I. destruct I as [I|[<-|[]]]; auto.
      * destruct (Z.leb_spec (f0 + (zlen ip + 0)) k); [|lia]. eexists _, _. split; [reflexivity|]. split.
        -- exists (f0 + zlen ip), [], oi. constructor; cbn [st_segs st_open st_first st_last st_meta first_ok open_rep app]; auto; try lia; [constructor|]. split; [|exact Og]. change (zlen (@nil (Z * sent))) with 0. replace (f0 + zlen ip + 0) with (f0 + (zlen ip + 0)) by lia. exact Rg.
        -- exists [g]. auto.
    + subst oi. eexists _, _. split; [reflexivity|]. split.
      * exists k, [], []. constructor; cbn [st_segs st_open st_first st_last st_meta first_ok open_rep app]; auto; try lia; [constructor|rewrite !skipn_nil; reflexivity|change (zlen (@nil (Z * sent))) with 0; lia].
      * exists []. auto.
  - eexists _, _. split; [reflexivity|]. pose proof (chain_bounds _ _ _ _ gr Cr (or_introl eq_refl)) as B. split.
    + exists (f0 + zlen ip), ir, oi. constructor; cbn [st_segs st_open st_first st_last st_meta first_ok]; auto; try lia. 
      * replace (f0 + zlen ip + zlen ir) with (f0 + (zlen ip + zlen ir)) by lia. exact O.
      * rewrite zlen_app. lia.
    + exists (gr :: r' ++ match st_open s with Some g => [g] | None => [] end). split; [|exact Pp]. unfold all_segs. rewrite Es, <- app_assoc. reflexivity.
Qed.
