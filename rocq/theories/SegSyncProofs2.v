(** C61, lemmas: the calls, system call by system call. *)
From Verif Require Import Base SegSync SegSyncSpec SegSyncProofs.

(** A predicate holds after every system call of a program. *)
Fixpoint along (P : sd -> Prop) (ys : list sys) (d : sd) : Prop := match ys with [] => True | y :: ys' => P (vol y d) /\ along P ys' (vol y d) end.
Lemma along_app P a : forall b d, along P (a ++ b) d <-> along P a d /\ along P b (vols a d).
Proof. induction a as [|y a IH]; intros b d; cbn; [tauto|]. rewrite IH. change (fold_left (fun d0 y0 => vol y0 d0) a (vol y d)) with (vols a (vol y d)). tauto. Qed.
Lemma along_mono (P Q : sd -> Prop) ys : (forall t, P t -> Q t) -> forall d, along P ys d -> along Q ys d.
Proof. intros H. induction ys as [|y ys IH]; cbn; intuition. Qed.
Lemma vols_app a b d : vols (a ++ b) d = vols b (vols a d). Proof. unfold vols. apply fold_left_app. Qed.
Lemma sysrun_app a : forall b dh, sysrun (a ++ b) dh = sysrun b (sysrun a dh).
Proof. induction a as [|y a IH]; intros b dh; cbn; auto. Qed.
Lemma sysrun_fst ys : forall d h, fst (sysrun ys (d, h)) = vols ys d.
Proof. induction ys as [|y ys IH]; intros d h; cbn; [reflexivity|]. rewrite IH. reflexivity. Qed.
Lemma sysrun_in ys : forall d h, In d h -> In (fst (sysrun ys (d, h))) (snd (sysrun ys (d, h))).
Proof.
  induction ys as [|y ys IH]; intros d h H; cbn [sysrun]; [exact H|]. cbn [fst snd]. apply IH. destruct y as [| |[]| | | | | |? []]; cbn [moments]; try (apply in_or_app; right; left; reflexivity); [left; reflexivity|right; left; reflexivity].
Qed.
Lemma sysrun_all (P : sd -> Prop) ys : forall d h, P d -> (forall t, In t h -> P t) -> along P ys d -> forall t, In t (snd (sysrun ys (d, h))) -> P t.
Proof.
  induction ys as [|y ys IH]; intros d h Pd Ph A t; cbn [sysrun]; [cbn; apply Ph|]. destruct A as [A1 A2]. cbn [fst snd]. apply IH; auto.
  assert (X : forall t, In t (h ++ [vol y d]) -> P t) by (intros u Hu; apply in_app_or in Hu; destruct Hu as [Hu|[<-|[]]]; auto).
  intros u Hu. destruct y as [| |[]| | | | | |? []]; cbn [moments] in Hu; try (apply X; exact Hu); [destruct Hu as [<-|[]]; exact A1|destruct Hu as [<-|[<-|[]]]; auto].
Qed.
Lemma along_firstn (P : sd -> Prop) ys : forall d j, along P ys d -> along P (firstn j ys) d.
Proof. induction ys as [|y ys IH]; intros d [|j]; cbn; intuition. Qed.
Lemma along_end (P : sd -> Prop) ys : forall d, P d -> along P ys d -> P (vols ys d).
Proof. induction ys as [|y ys IH]; intros d Pd; cbn; auto. intros [A B]. apply (IH (vol y d)); auto. Qed.

Lemma abs_eq m d b f : base m d = b -> flat d = f -> d_meta d = Some m -> abs d = mkG m (skipn (Z.to_nat (m - b)) f).
Proof. intros B F E. unfold abs. rewrite E, B, F. reflexivity. Qed.

(** * append_entries *)
Section Append.
Variables (fl : dflags) (st : bool) (m a : Z) (ents : list dent).
Hypotheses (MX : 0 <= fl_max fl) (SG : st = true -> fl_segs fl = true).
Record AI (x : list dent) (d : sd) : Prop := mkAI {
  ai_wf : WFm fl st m d; ai_op : opens a d; ai_abs : abs d = mkG m (ents ++ x); ai_end : base m d + zlen (flat d) = m + zlen (ents ++ x);
  ai_low : low m (d_cl d) = O; ai_v : flat d = [] \/ 0 < zlen (ents ++ x) }.
Lemma V_end d x : WFm fl st m d -> V m d -> abs d = mkG m x -> base m d + zlen (flat d) = m + zlen x.
Proof.
  intros W [E _] A. rewrite (abs_of _ _ _ _ W) in A. injection A as A. apply (f_equal zlen) in A. pose proof (w_m _ _ _ _ W) as M. rewrite zlen_skipn in A by lia.
  destruct E as [E|E]; [|lia]. unfold flat, base in *. rewrite E in A |- *. unfold flatf in *. cbn in *. rewrite zlen_nil' in *. lia.
Qed.
Lemma low_app_cl k cl g : (low k (cl ++ [g]) = O <-> low k cl = O /\ (cl = [] -> k <= f_last g)).
Proof. destruct cl as [|c cl]; cbn [app low]. - destruct (Z.ltb_spec (f_last g) k); split; intros H'; try discriminate H'; [destruct H' as [_ H']; specialize (H' eq_refl); lia|auto|auto]. - destruct (f_last c <? k); split; intros H'; try discriminate H'; [destruct H' as [H' _]; discriminate H'|split; [auto|discriminate]|auto]. Qed.

Lemma bytes_two g : Forall (esz fl st) (f_es g) -> fl_max fl < f_bytes g -> f_es g <> [] /\ (st = true -> (1 < length (f_es g))%nat).
Proof.
  unfold f_bytes. destruct (f_es g) as [|e [|e2 r]]; cbn; intros F B; [lia| |split; [discriminate|intros _; lia]]. split; [discriminate|].
  intros S. apply Forall_inv in F. destruct F as [_ Q]. specialize (Q S). lia.
Qed.
(** The three shapes of change: a new open file, an entry written, marks on the open file. *)
Lemma create_AI x d i : AI x d -> d_op d = None -> i = m + zlen (ents ++ x) -> a < i -> AI x (vol (YCreate i) d).
Proof.
  intros [W O A E LW NV] N I Ai. pose proof (w_m _ _ _ _ W) as M.
  assert (DA : d_all (vol (YCreate i) d) = d_all d ++ [mkF i 0 [] 0]) by (unfold d_all; cbn [vol d_cl d_op]; rewrite N, app_nil_r; reflexivity).
  assert (FL : flat (vol (YCreate i) d) = flat d) by (unfold flat; rewrite DA, flatf_app, flatf_one; cbn; apply app_nil_r).
  assert (BS : base m (vol (YCreate i) d) = base m d).
  { unfold base. rewrite DA. destruct (d_all d) as [|g r] eqn:Q; [cbn|reflexivity]. unfold flat, base in E. rewrite Q in E. unfold flatf in E. cbn in E. rewrite zlen_nil' in E. lia. }
  constructor; [constructor| | | | |].
  - exact (w_meta _ _ _ _ W).
  - rewrite BS. exact M.
  - rewrite BS, DA. apply chain_app. split; [exact (w_ch _ _ _ _ W)|]. fold (flat d). cbn. split; [lia|auto].
  - exact (w_cl _ _ _ _ W).
  - cbn. intros g G. injection G as <-. cbn. lia.
  - rewrite FL. exact (w_sz _ _ _ _ W).
  - intros g G. cbn in G. injection G as <-. cbn. lia.
  - rewrite (abs_eq m _ _ _ BS FL (w_meta _ _ _ _ W)), <- A. symmetry. apply (abs_of _ _ _ _ W).
  - rewrite BS, FL. exact E.
  - exact LW.
  - rewrite FL. exact NV.
Qed.
Lemma all_open d g : d_op d = Some g -> d_all d = d_cl d ++ [g]. Proof. intros E. unfold d_all. rewrite E. reflexivity. Qed.
Lemma on_open_all f d g : d_op d = Some g -> d_all (on_open f d) = d_cl d ++ [f g].
Proof. intros E. unfold d_all, on_open. cbn. rewrite E. reflexivity. Qed.
Lemma base_on_open f d g : d_op d = Some g -> f_first (f g) = f_first g -> base m (on_open f d) = base m d.
Proof. intros E F. unfold base. rewrite (on_open_all f d g E), (all_open d g E). destruct (d_cl d); cbn; auto. Qed.
Lemma write_AI x d e g : AI x d -> d_op d = Some g -> esz fl st e -> AI (x ++ [e]) (vol (YWrite e) d).
Proof.
  intros [W O A E LW NV] G S. pose proof (w_m _ _ _ _ W) as M. cbn [vol]. set (f := fun g => mkF (f_first g) (f_last g) (f_es g ++ [e]) (f_sync g)).
  pose proof (on_open_all f d g G) as DA. pose proof (base_on_open f d g G eq_refl) as BS.
  assert (FL : flat (on_open f d) = flat d ++ [e]) by (unfold flat; rewrite DA, (all_open d g G), !flatf_app, !flatf_one; cbn; rewrite app_assoc; reflexivity).
  constructor; [constructor| | | | |].
  - exact (w_meta _ _ _ _ W).
  - rewrite BS. exact M.
  - rewrite BS, DA. pose proof (w_ch _ _ _ _ W) as C. rewrite (all_open d g G) in C. apply chain_app in C. apply chain_app. cbn in *. tauto.
  - exact (w_cl _ _ _ _ W).
  - cbn. rewrite G. cbn. intros g' H. injection H as <-. cbn. rewrite app_length. pose proof (w_op _ _ _ _ W g G). lia.
  - rewrite FL. apply Forall_app. split; [exact (w_sz _ _ _ _ W)|constructor; auto].
  - intros g' H. cbn in H. rewrite G in H. cbn in H. injection H as <-. cbn. apply (O g G).
  - rewrite (abs_eq m _ _ _ BS FL (w_meta _ _ _ _ W)). rewrite (abs_of _ _ _ _ W) in A. injection A as A. f_equal.
    rewrite skipn_app, A. replace (Z.to_nat (m - base m d) - length (flat d))%nat with 0%nat by (unfold zlen in E; lia). cbn. rewrite app_assoc. reflexivity.
  - rewrite BS, FL, zlen_app', app_assoc, (zlen_app' (ents ++ x)), zlen_cons', zlen_nil'. lia.
  - exact LW.
  - right. unfold zlen. rewrite !app_length. cbn [length]. lia.
Qed.
Lemma sync_AI x d g ok : AI x d -> d_op d = Some g -> AI x (vol (YSync ok) d).
Proof.
  intros [W O A E LW NV] G. pose proof (w_m _ _ _ _ W) as M. cbn [vol]. set (f := fun g => mkF (f_first g) (f_last g) (f_es g) (if ok then length (f_es g) else f_sync g)).
  pose proof (on_open_all f d g G) as DA. pose proof (base_on_open f d g G eq_refl) as BS. pose proof (w_op _ _ _ _ W g G) as WO.
  assert (FL : flat (on_open f d) = flat d) by (unfold flat; rewrite DA, (all_open d g G), !flatf_app, !flatf_one; reflexivity).
  constructor; [constructor| | | | |].
  - exact (w_meta _ _ _ _ W).
  - rewrite BS. exact M.
  - rewrite BS, DA. pose proof (w_ch _ _ _ _ W) as C. rewrite (all_open d g G) in C. apply chain_app in C. apply chain_app. cbn in *. tauto.
  - exact (w_cl _ _ _ _ W).
  - cbn. rewrite G. cbn. intros g' H. injection H as <-. cbn. destruct ok; lia.
  - rewrite FL. exact (w_sz _ _ _ _ W).
  - intros g' H. cbn in H. rewrite G in H. cbn in H. injection H as <-. cbn. pose proof (O g G). destruct ok; lia.
  - rewrite (abs_eq m _ _ _ BS FL (w_meta _ _ _ _ W)), <- A. symmetry. apply (abs_of _ _ _ _ W).
  - rewrite BS, FL. exact E.
  - exact LW.
  - rewrite FL. exact NV.
Qed.
Lemma close_AI x d g : AI x d -> d_op d = Some g -> f_es g <> [] -> (st = true -> f_sync g = length (f_es g)) -> AI x (vol YClose d) /\ d_op (vol YClose d) = None.
Proof.
  intros [W O A E LW NV] G NE SY. cbn [vol]. rewrite G. split; [|reflexivity]. set (g' := mkF _ _ _ _). pose proof (w_m _ _ _ _ W) as M. pose proof (w_op _ _ _ _ W g G) as WO.
  set (d' := mkD (d_meta d) (d_cl d ++ [g']) None). assert (DA : d_all d' = d_cl d ++ [g']) by (unfold d_all; cbn; apply app_nil_r).
  assert (FL : flat d' = flat d) by (unfold flat; rewrite DA, (all_open d g G), !flatf_app, !flatf_one; reflexivity).
  assert (BS : base m d' = base m d) by (unfold base; rewrite DA, (all_open d g G); destruct (d_cl d); reflexivity).
  constructor; [constructor| | | | |].
  - exact (w_meta _ _ _ _ W).
  - rewrite BS. exact M.
  - rewrite BS, DA. pose proof (w_ch _ _ _ _ W) as C. rewrite (all_open d g G) in C. apply chain_app in C. apply chain_app. cbn in *. tauto.
  - cbn. apply Forall_app. split; [exact (w_cl _ _ _ _ W)|]. constructor; [|constructor]. split; [exact NE|]. split; [reflexivity|]. split; [exact WO|exact SY].
  - discriminate.
  - rewrite FL. exact (w_sz _ _ _ _ W).
  - intros g0 H. discriminate H.
  - rewrite (abs_eq m _ _ _ BS FL (w_meta _ _ _ _ W)), <- A. symmetry. apply (abs_of _ _ _ _ W).
  - rewrite BS, FL. exact E.
  - cbn [d' d_cl]. apply low_app_cl. split; [exact LW|]. intros N. unfold g'. cbn [f_last]. destruct NV as [NV|NV].
    + exfalso. unfold flat in NV. rewrite (all_open d g G), flatf_app, flatf_one in NV. apply app_eq_nil in NV. tauto.
    + pose proof (w_ch _ _ _ _ W) as C. rewrite (all_open d g G), N in C. cbn in C. unfold flat in E. rewrite (all_open d g G), N in E. cbn [app] in E. rewrite flatf_one in E. lia.
  - rewrite FL. exact NV.
Qed.
Definition AQ (es : list dent) (d : sd) : Prop := exists x, AI x d /\ prefix x es.
Lemma one_AI x d e last : AI x d -> last + 1 = m + zlen (ents ++ x) -> a <= last -> esz fl st e ->
  along (fun t => AI x t \/ AI (x ++ [e]) t) (append_one fl last e d) d /\ AI (x ++ [e]) (vols (append_one fl last e d) d) /\ exists g, d_op (vols (append_one fl last e d) d) = Some g.
Proof.
  intros H L La S. unfold append_one. destruct (d_op d) as [g|] eqn:G.
  - destruct (Z.ltb_spec (fl_max fl) (f_bytes g)) as [B|B].
    + assert (FS : Forall (esz fl st) (f_es g)).
      { pose proof (w_sz _ _ _ _ (ai_wf _ _ H)) as F. unfold flat in F. rewrite (all_open d g G), flatf_app, flatf_one in F. apply Forall_app in F. apply F. }
      destruct (bytes_two g FS B) as [NE TW].
      assert (X : exists pre d1 g1, (pre = [] \/ pre = [YSync true]) /\ (if fl_segs fl && Nat.ltb 1 (length (f_es g)) then [YSync true] else []) = pre /\ vols pre d = d1 /\
                  along (fun t => AI x t) pre d /\ AI x d1 /\ d_op d1 = Some g1 /\ f_es g1 <> [] /\ (st = true -> f_sync g1 = length (f_es g1))).
      { destruct (fl_segs fl && Nat.ltb 1 (length (f_es g))) eqn:Q.
        - exists [YSync true], (vol (YSync true) d), (mkF (f_first g) (f_last g) (f_es g) (length (f_es g))). split; [auto|]. split; [reflexivity|]. split; [reflexivity|].
          pose proof (sync_AI x d g true H G) as H1. split; [cbn [along]; auto|]. split; [exact H1|]. split; [cbn; rewrite G; reflexivity|]. split; [exact NE|reflexivity].
        - exists [], d, g. split; [auto|]. split; [reflexivity|]. split; [reflexivity|]. split; [exact I|]. split; [exact H|]. split; [exact G|]. split; [exact NE|].
          intros S'. rewrite (SG S') in Q. cbn [andb] in Q. apply Nat.ltb_ge in Q. specialize (TW S'). lia. }
      destruct X as (pre & d1 & g1 & _ & -> & V1 & A1 & H1 & G1 & NE1 & SY1).
      destruct (close_AI x d1 g1 H1 G1 NE1 SY1) as [H2 N2].
      pose proof (create_AI x (vol YClose d1) (last + 1) H2 N2 L ltac:(lia)) as H3.
      pose proof (write_AI x (vol (YCreate (last + 1)) (vol YClose d1)) e (mkF (last + 1) 0 [] 0) H3 eq_refl S) as H4.
      rewrite <- app_assoc, !vols_app, V1. split; [|split; [exact H4|eexists; reflexivity]].
      apply along_app. split; [apply (along_mono (fun t => AI x t)); [auto|exact A1]|]. rewrite V1. cbn [app along]. auto.
    + cbn [app along vols fold_left]. pose proof (write_AI x d e g H G S) as H4. split; [auto|]. split; [exact H4|]. cbn. rewrite G. cbn. eauto.
  - cbn [app along vols fold_left]. pose proof (create_AI x d (last + 1) H G L ltac:(lia)) as H3.
    pose proof (write_AI x (vol (YCreate (last + 1)) d) e (mkF (last + 1) 0 [] 0) H3 eq_refl S) as H4. split; [auto|]. split; [exact H4|]. cbn. eauto.
Qed.
Lemma loop_AI es : forall x d last, AI x d -> last + 1 = m + zlen (ents ++ x) -> a <= last -> Forall (esz fl st) es ->
  along (fun t => exists y, AI (x ++ y) t /\ prefix y es) (append_loop fl last es d) d /\ AI (x ++ es) (vols (append_loop fl last es d) d) /\
  (es <> [] -> exists g, d_op (vols (append_loop fl last es d) d) = Some g).
Proof.
  induction es as [|e es IH]; intros x d last H L La F.
  - cbn. rewrite app_nil_r. split; [exact I|]. split; [exact H|congruence].
  - inversion F as [|? ? S F']. subst. cbn [append_loop]. destruct (one_AI x d e last H L La S) as (A1 & H1 & g1 & G1).
    set (p := append_one fl last e d) in *. destruct (IH (x ++ [e]) (vols p d) (last + 1) H1) as (A2 & H2 & G2); [|lia|exact F'|].
    { rewrite app_assoc, (zlen_app' (ents ++ x)), zlen_cons', zlen_nil'. lia. }
    rewrite <- !app_assoc in *. cbn [app] in *. rewrite vols_app. split; [|split; [exact H2|]].
    + apply along_app. split.
      * apply (along_mono (fun t => AI x t \/ AI (x ++ [e]) t)); [|exact A1]. intros t [Ht|Ht]; [exists []; rewrite app_nil_r; split; [exact Ht|exists (e :: es); reflexivity]|].
        exists [e]. split; [exact Ht|]. exists es. reflexivity.
      * apply (along_mono (fun t => exists y, AI ((x ++ [e]) ++ y) t /\ prefix y es)); [|exact A2]. intros t (y & Hy & z & ->). exists (e :: y). rewrite <- app_assoc in Hy. split; [exact Hy|exists z; reflexivity].
    + intros _. destruct es as [|e' es']; [cbn; eauto|]. apply G2. discriminate.
Qed.
End Append.
