From Verif Require Import Base BaseLemmas Conf ConfSpec MetaFile SegCodec Segment SegSpec SegCodecProofs SegProofs SegStore SegStoreSpec.
From Coq Require Import Permutation.

Ltac sp := repeat match goal with |- _ /\ _ => split end.
(** * Chains of closed segments *)
Inductive chain (H : hashes) : Z -> list seg -> list (Z * sent) -> Prop :=
| ChNil : forall f, chain H f [] []
| ChCons : forall f g l segs its, seg_rep H g f l -> l <> [] -> sg_open g = false -> chain H (f + zlen l) segs its -> chain H f (g :: segs) (l ++ its).
Lemma chain_inv : forall H f g segs its, chain H f (g :: segs) its -> exists l its', its = l ++ its' /\ seg_rep H g f l /\ l <> [] /\ sg_open g = false /\ chain H (f + zlen l) segs its'.
Proof. intros H f g segs its C. inversion C; subst. eexists _, _. eauto. Qed.
Lemma chain_nil : forall H f its, chain H f [] its -> its = [].
Proof. intros H f its C. inversion C. auto. Qed.
Ltac chinv C := let l := fresh "l" in let i := fresh "its" in let R := fresh "Rg" in let N := fresh "Ne" in let O := fresh "Og" in let C2 := fresh "Ct" in
  destruct (chain_inv _ _ _ _ _ C) as [l [i [-> [R [N [O C2]]]]]].
Lemma zlen_pos : forall A (l : list A), l <> [] -> 1 <= zlen l.
Proof. intros A [|x l] N; [congruence|]. rewrite zlen_cons. pose proof (zlen_nonneg l). lia. Qed.
Lemma chain_app : forall H a f ia b ib, chain H f a ia -> chain H (f + zlen ia) b ib -> chain H f (a ++ b) (ia ++ ib).
Proof.
  intros H. induction a as [|g a IH]; intros f ia b ib Ca Cb.
  - rewrite (chain_nil _ _ _ Ca) in *. change (zlen (@nil (Z * sent))) with 0 in Cb. rewrite Z.add_0_r in Cb. exact Cb.
  - chinv Ca. rewrite <- app_assoc. rewrite zlen_app in Cb. cbn [app]. econstructor; eauto. apply IH; auto. replace (f + zlen l + zlen its) with (f + (zlen l + zlen its)) by lia. exact Cb.
Qed.
Lemma chain_split : forall H a f b its, chain H f (a ++ b) its -> exists ia ib, its = ia ++ ib /\ chain H f a ia /\ chain H (f + zlen ia) b ib.
Proof.
  intros H. induction a as [|g a IH]; intros f b its C.
  - exists [], its. change (zlen (@nil (Z * sent))) with 0. rewrite Z.add_0_r. sp; auto. constructor.
  - cbn [app] in C. chinv C. destruct (IH _ _ _ Ct) as [ia [ib [-> [C1 C2]]]]. exists (l ++ ia), ib. rewrite <- app_assoc. sp; [reflexivity|econstructor; eauto|]. rewrite zlen_app. replace (f + (zlen l + zlen ia)) with (f + zlen l + zlen ia) by lia. exact C2.
Qed.
Lemma chain_good : forall H segs f its, chain H f segs its -> Forall good_item its.
Proof. intros H. induction segs as [|g segs IH]; intros f its C; [rewrite (chain_nil _ _ _ C); constructor|]. chinv C. apply Forall_app. split; [apply Rg|eapply IH; eauto]. Qed.
Lemma chain_bounds : forall H segs f its g, chain H f segs its -> In g segs -> f <= sg_first g /\ sg_first g <= sg_last g /\ sg_last g < f + zlen its /\ sg_open g = false.
Proof.
  intros H. induction segs as [|g0 segs IH]; intros f its g C I; [destruct I|]. chinv C. rewrite zlen_app. pose proof (zlen_pos _ _ Ne). pose proof (zlen_nonneg its0). destruct I as [->|I].
  - pose proof (sr_first _ _ _ _ Rg). pose proof (sr_last _ _ _ _ Rg). sp; auto; lia.
  - destruct (IH _ _ _ Ct I) as [A [B [C1 D]]]. sp; auto; lia.
Qed.
Lemma chain_nonempty : forall H f g segs its, chain H f (g :: segs) its -> its <> [].
Proof. intros H f g segs its C. chinv C. destruct l; [congruence|discriminate]. Qed.

Lemma map_set_end : forall A (key : A -> Z) x l, (forall y, In y l -> key y < key x) -> map_set key x l = l ++ [x].
Proof.
  intros A key x. induction l as [|y l IH]; intros B; [reflexivity|]. cbn [map_set app]. pose proof (B y (or_introl eq_refl)). destruct (Z.ltb_spec (key x) (key y)); [lia|]. destruct (Z.eqb_spec (key x) (key y)); [lia|]. rewrite IH by (intros; apply B; right; auto). reflexivity.
Qed.
Lemma before_ub_chain : forall H segs f its idx, chain H f segs its -> f <= idx < f + zlen its ->
  exists g fg l, before_ub idx segs = Some g /\ seg_rep H g fg l /\ fg <= idx /\ znth l (idx - fg) = znth its (idx - f).
Proof.
  intros H. induction segs as [|g segs IH]; intros f its idx C B.
  - rewrite (chain_nil _ _ _ C) in B. change (zlen (@nil (Z * sent))) with 0 in B. lia.
  - chinv C. rewrite zlen_app in B. cbn [before_ub]. pose proof (sr_first _ _ _ _ Rg) as F. destruct (Z.leb_spec (sg_first g) idx); [|lia].
    destruct (Z_lt_le_dec idx (f + zlen l)) as [L|L].
    + assert (before_ub idx segs = None) as ->.
      { destruct segs as [|g2 segs]; [reflexivity|]. cbn [before_ub]. chinv Ct. rewrite (sr_first _ _ _ _ Rg0). destruct (Z.leb_spec (f + zlen l) idx); [lia|reflexivity]. }
      exists g, f, l. split; [reflexivity|]. split; [exact Rg|]. split; [lia|]. symmetry. apply znth_app1. lia.
    + destruct (IH _ _ idx Ct ltac:(lia)) as [g' [fg [l' [E [R [Lf Z]]]]]]. rewrite E. exists g', fg, l'. sp; auto. rewrite Z. rewrite znth_app2 by lia. f_equal. lia.
Qed.
Lemma pop_front_chain : forall H k segs f its, chain H f segs its -> exists p r ip ir, pop_front k segs = (p, r) /\ segs = p ++ r /\ its = ip ++ ir /\ chain H f p ip /\ chain H (f + zlen ip) r ir /\
  (forall g, In g p -> sg_last g < k) /\ match r with g :: _ => k <= sg_last g | [] => True end.
Proof.
  intros H k. induction segs as [|g segs IH]; intros f its C.
  - rewrite (chain_nil _ _ _ C). exists [], [], [], []. change (zlen (@nil (Z * sent))) with 0. rewrite Z.add_0_r. sp; auto; try constructor. intros ? [].
  - pose proof C as C0. chinv C. cbn [pop_front]. destruct (Z.ltb_spec (sg_last g) k).
    + destruct (IH _ _ Ct) as [p [r [ip [ir [E [-> [-> [C1 [C2 [P R]]]]]]]]]]. rewrite E. exists (g :: p), r, (l ++ ip), ir. rewrite <- app_assoc. sp; auto; [econstructor; eauto| |].
      * rewrite zlen_app. replace (f + (zlen l + zlen ip)) with (f + zlen l + zlen ip) by lia. exact C2.
      * intros g' [<-|I]; auto.
    + exists [], (g :: segs), [], (l ++ its0). change (zlen (@nil (Z * sent))) with 0. rewrite Z.add_0_r. sp; auto; [constructor|intros ? []].
Qed.
Lemma keep_drop : forall k l, keep_le k l ++ drop_le k l = l.
Proof. intros k. induction l as [|g l IH]; [reflexivity|]. cbn. destruct (sg_first g <=? k); cbn; [rewrite IH; reflexivity|reflexivity]. Qed.
Lemma keep_le_in : forall k l g, In g (keep_le k l) -> sg_first g <= k.
Proof. intros k. induction l as [|x l IH]; intros g I; cbn in I; [destruct I|]. destruct (Z.leb_spec (sg_first x) k); [destruct I as [<-|I]; auto|destruct I]. Qed.
Lemma drop_le_head : forall k l g r, drop_le k l = g :: r -> k < sg_first g.
Proof. intros k. induction l as [|x l IH]; intros g r E; cbn in E; [discriminate|]. destruct (Z.leb_spec (sg_first x) k); [eauto|]. congruence. Qed.

(** * The invariant: store [s] holds the log that begins at [first] with the items [its] *)
Definition first_ok (first : Z) (segs : list seg) (o : option seg) : Prop :=
  match segs, o with g :: _, _ => first <= sg_last g | [], Some g => first <= sg_last g | [], None => True end.
Definition open_rep (H : hashes) (o : option seg) (f : Z) (oi : list (Z * sent)) : Prop :=
  match o with Some g => seg_rep H g f oi /\ sg_open g = true | None => oi = [] end.
Record st_rep (H : hashes) (s : store) (first : Z) (its : list (Z * sent)) (f0 : Z) (ci oi : list (Z * sent)) : Prop := {
  sp_chain : chain H f0 (st_segs s) ci; sp_open : open_rep H (st_open s) (f0 + zlen ci) oi;
  sp_its : its = skipn (Z.to_nat (first - f0)) (ci ++ oi);
  sp_first : st_first s = first; sp_last : st_last s = f0 + zlen (ci ++ oi) - 1; sp_meta : st_meta s = Some first;
  sp_low : 1 <= f0 <= first; sp_high : first <= st_last s + 1; sp_ok : first_ok first (st_segs s) (st_open s) }.
Definition st_inv (H : hashes) (s : store) (first : Z) (its : list (Z * sent)) : Prop := exists f0 ci oi, st_rep H s first its f0 ci oi.

Lemma zlen_skipn : forall A (l : list A) n, 0 <= n <= zlen l -> zlen (skipn (Z.to_nat n) l) = zlen l - n.
Proof. intros. unfold zlen in *. rewrite skipn_length. lia. Qed.
Lemma znth_skipn : forall A (l : list A) n i, 0 <= n -> 0 <= i -> znth (skipn (Z.to_nat n) l) i = znth l (n + i).
Proof.
  intros A l n i N I. unfold znth. destruct (Z.ltb_spec i 0); [lia|]. destruct (Z.ltb_spec (n + i) 0); [lia|]. replace (Z.to_nat (n + i)) with (Z.to_nat n + Z.to_nat i)%nat by lia.
  generalize (Z.to_nat n) as m. revert l. induction l as [|x l IH]; intros m; [rewrite skipn_nil; rewrite !(proj2 (nth_error_None _ _)) by (cbn; lia); reflexivity|]. destruct m; [reflexivity|]. apply IH.
Qed.
Lemma znth_neg : forall A (l : list A) i, i < 0 -> znth l i = None.
Proof. intros. apply znth_none. lia. Qed.
Lemma znth_over : forall A (l : list A) i, zlen l <= i -> znth l i = None.
Proof. intros. apply znth_none. lia. Qed.
Lemma znth_map : forall A B (f : A -> B) l i, znth (map f l) i = option_map f (znth l i).
Proof. intros. unfold znth. destruct (i <? 0); [reflexivity|]. apply nth_error_map. Qed.

Lemma inv_len : forall H s first its f0 ci oi, st_rep H s first its f0 ci oi -> st_last s = first + zlen its - 1.
Proof.
  intros H s first its f0 ci oi R. pose proof (sp_last _ _ _ _ _ _ _ R). pose proof (sp_low _ _ _ _ _ _ _ R). pose proof (sp_high _ _ _ _ _ _ _ R). rewrite (sp_its _ _ _ _ _ _ _ R), zlen_skipn by lia. lia.
Qed.
Lemma inv_get_segment : forall H s first its f0 ci oi i, st_rep H s first its f0 ci oi -> first <= i <= st_last s ->
  exists g fg l, get_segment s i = Some (Some g) /\ seg_rep H g fg l /\ znth l (i - fg) = znth its (i - first).
Proof.
  intros H s first its f0 ci oi i R B. pose proof (sp_last _ _ _ _ _ _ _ R) as La. pose proof (sp_low _ _ _ _ _ _ _ R) as Lo. pose proof (sp_high _ _ _ _ _ _ _ R) as Hi. pose proof (sp_chain _ _ _ _ _ _ _ R) as C. pose proof (sp_open _ _ _ _ _ _ _ R) as O.
  assert (Z1 : znth its (i - first) = znth (ci ++ oi) (i - f0)).
  { rewrite (sp_its _ _ _ _ _ _ _ R), znth_skipn by lia. f_equal. lia. }
  rewrite Z1. rewrite zlen_app in La. unfold get_segment. rewrite (sp_first _ _ _ _ _ _ _ R). destruct (Z.eqb_spec first (st_last s + 1)); [lia|]. destruct (Z.ltb_spec i first); [lia|]. destruct (Z.ltb_spec (st_last s) i); [lia|]. cbn [orb]. cbv zeta.
  destruct (Z_lt_le_dec i (f0 + zlen ci)) as [L|L].
  - destruct (before_ub_chain H _ _ _ i C ltac:(lia)) as [g [fg [l [E [Rg [Lf Z]]]]]]. rewrite E. exists g, fg, l.
    assert (Z2 : znth l (i - fg) = znth (ci ++ oi) (i - f0)) by (rewrite Z; symmetry; apply znth_app1; lia).
    destruct (st_open s) as [g2|]; [|auto]. destruct O as [O _]. rewrite (sr_first _ _ _ _ O). destruct (Z.leb_spec (f0 + zlen ci) i); [lia|]. auto.
  - unfold open_rep in O. destruct (st_open s) as [g2|].
    + destruct O as [O _]. rewrite (sr_first _ _ _ _ O). destruct (Z.leb_spec (f0 + zlen ci) i); [|lia]. exists g2, (f0 + zlen ci), oi. sp; auto. rewrite znth_app2 by lia. f_equal. lia.
    + subst oi. change (zlen (@nil (Z * sent))) with 0 in La. lia.
Qed.
Lemma inv_shows : forall H s first its, st_inv H s first its -> shows_log H s (mkPl first (map snd its)).
Proof.
  intros H s first its [f0 [ci [oi R]]]. pose proof (inv_len _ _ _ _ _ _ _ R) as La. unfold shows_log, pl_last, pl_at. cbn [pl_first pl_ents]. split; [apply R|]. assert (ZM : zlen (map snd its) = zlen its) by (unfold zlen; rewrite map_length; reflexivity). rewrite ZM. split; [exact La|].
  intros i. rewrite znth_map. destruct (Z_lt_le_dec i first) as [L|L]; [|destruct (Z_lt_le_dec (st_last s) i) as [L2|L2]].
  - rewrite (znth_neg _ its) by lia. unfold st_get, st_term, get_segment. rewrite (sp_first _ _ _ _ _ _ _ R). destruct (first =? st_last s + 1); [auto|]. destruct (Z.ltb_spec i first); [|lia]. auto.
  - rewrite (znth_over _ its) by lia. unfold st_get, st_term, get_segment. rewrite (sp_first _ _ _ _ _ _ _ R). destruct (first =? st_last s + 1); [auto|]. destruct (Z.ltb_spec (st_last s) i); [|lia]. rewrite orb_true_r. auto.
  - destruct (inv_get_segment _ _ _ _ _ _ _ i R (conj L L2)) as [g [fg [l [E [Rg Z]]]]]. unfold st_get, st_term. rewrite E. destruct (rep_shows _ _ _ _ Rg) as [_ [_ Sh]]. destruct (Sh i) as [S1 S2]. rewrite S1, S2, Z. destruct (znth its (i - first)) as [x|]; auto.
Qed.
