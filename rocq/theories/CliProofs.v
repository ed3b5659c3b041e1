From Verif Require Import Base BallotBox ConfCtx ConfCtxSpec ConfCtxProofs ConfCtxProofs2 Cli CliSpec.

Definition isin (ks : list ccall) (c : closure) : bool := existsb (fun k => Z.eqb (cl_id k) c) ks.
Lemma isin_spec ks c : isin ks c = true <-> In c (map cl_id ks).
Proof.
  unfold isin. rewrite existsb_exists, in_map_iff. split; intros (k & A & B); exists k; [apply Z.eqb_eq in B|]; split; auto. apply Z.eqb_eq; auto.
Qed.
Lemma isin_false ks c : isin ks c = false <-> ~ In c (map cl_id ks).
Proof. rewrite <- isin_spec. destruct (isin ks c); split; congruence. Qed.

Lemma perm_filter {A} (f : A -> bool) l l' : Permutation l l' -> Permutation (filter f l) (filter f l').
Proof.
  induction 1; cbn; auto.
  - destruct (f x); auto.
  - destruct (f x), (f y); auto. constructor.
  - etransitivity; eauto.
Qed.

Lemma NoDup_app_iff {A} (a b : list A) : NoDup (a ++ b) <-> NoDup a /\ NoDup b /\ forall x, In x a -> ~ In x b.
Proof.
  induction a as [|x a IH]; cbn.
  - split; [intros H; split; [constructor|split; auto; intros y []]|tauto].
  - rewrite !NoDup_cons_iff, IH, in_app_iff. split.
    + intros (H1 & H2 & H3 & H4). split; [split; tauto|]. split; auto. intros y [->|Hy] Y; [tauto|]. exact (H4 y Hy Y).
    + intros ((H1 & H2) & H3 & H4). split; [intros [Y|Y]; [auto|]; exact (H4 x (or_introl eq_refl) Y)|]. split; auto.
Qed.

Lemma find_isin ks c : match find (fun k => cl_id k =? c) ks with Some k => isin ks c = true /\ In k ks /\ cl_id k = c | None => isin ks c = false end.
Proof.
  destruct (find (fun k => cl_id k =? c) ks) as [k|] eqn:F.
  - apply find_some in F. destruct F as [F1 F2]. apply Z.eqb_eq in F2. split; auto. apply isin_spec, in_map_iff. eauto.
  - apply isin_false. intros H. apply in_map_iff in H. destruct H as (k & E & H). apply (find_none _ _ F) in H. apply Z.eqb_neq in H. congruence.
Qed.

Lemma replied_map ks o : replied (map (reply_of ks) o) = filter (isin ks) (answered o).
Proof.
  unfold replied, answered in *. induction o as [|x o IH]; cbn; auto. destruct x as [t n old|c code]; cbn; auto. pose proof (find_isin ks c) as F.
  destruct (find (fun k => cl_id k =? c) ks) as [k|].
  - destruct F as (F & _). rewrite F. destruct (code =? 0); cbn; f_equal; auto.
  - rewrite F. cbn. auto.
Qed.

Lemma unserved_eq s : unserved s = map cl_id (c_sampled s) ++ filter (isin (c_issued s)) (pend (c_x s)).
Proof. unfold unserved, pend. destruct (cx_done (c_x s)); reflexivity. Qed.

Lemma existsb_used c l : existsb (Z.eqb c) l = true <-> In c l.
Proof. rewrite existsb_exists. split; [intros (x & A & B); apply Z.eqb_eq in B; subst; auto|intros H; exists c; split; auto; apply Z.eqb_refl]. Qed.

Record CI (self : peer) (s : cstate) (h : list (cstate * cev)) (os : list cout) (xh : list (xstate * xev)) (xos : list xout) : Prop := mkCI {
  i_life : xlife self (c_x s) xh xos;
  i_nodup : NoDup (asked xh ++ map cl_id (c_sampled s));
  i_used : forall c, In c (asked xh ++ map cl_id (c_sampled s)) -> In c (c_used s);
  i_called : NoDup (called h) /\ forall c, In c (called h) -> In c (c_used s);
  i_idup : NoDup (map cl_id (c_issued s));
  i_samp : forall k, In k (c_sampled s) -> exists s1, In (s1, CCall (cl_id k) (cl_req k) true) h /\ cl_old k = fst (x_conf (c_x s1)) /\ x_role (c_x s1) = RLeader;
  i_iss : forall k, In k (c_issued s) -> (exists s1, In (s1, CCall (cl_id k) (cl_req k) true) h /\ cl_old k = fst (x_conf (c_x s1)) /\ x_role (c_x s1) = RLeader) /\
            exists s2 f, In (s2, CIssue (cl_id k) f) h /\ In (c_x s2, XReq (cl_req k) (Some (cl_id k)) f) xh;
  i_perm : Permutation (called h) (replied os ++ unserved s) }.

Lemma asked_app a b : asked (a ++ b) = asked a ++ asked b.
Proof. unfold asked. apply flat_map_app. Qed.
Lemma called_app a b : called (a ++ b) = called a ++ called b.
Proof. unfold called. apply flat_map_app. Qed.
Lemma replied_app a b : replied (a ++ b) = replied a ++ replied b.
Proof. unfold replied. apply flat_map_app. Qed.

Lemma pend_asked self x xh xos : xlife self x xh xos -> forall c, In c (pend x) -> In c (asked xh).
Proof. intros L c H. apply (Permutation_in c (Permutation_sym (xlife_closures _ _ _ _ L))). apply in_app_iff. auto. Qed.

Lemma step_perm self x xh xos e x' o : xlife self x xh xos -> xstep x e = Some (x', o) ->
  Permutation (pend x ++ asked [(x, e)]) (answered o ++ pend x').
Proof.
  intros L H. destruct (xstep_accounted _ _ _ _ (proj1 (xlife_inv _ _ _ _ L)) H) as [P _]. unfold accounted in P. rewrite <- P.
  unfold asked. cbn. rewrite app_nil_r. destruct e; cbn; auto; destruct done; auto.
Qed.

Lemma filter_isin_snoc ks k c l : cl_id k = c -> ~ In c l -> filter (isin (ks ++ [k])) l = filter (isin ks) l.
Proof.
  intros E N. induction l as [|x l IH]; cbn; auto. assert (X : isin (ks ++ [k]) x = isin ks x).
  { unfold isin. rewrite existsb_app. cbn. destruct (cl_id k =? x) eqn:Q; [apply Z.eqb_eq in Q; exfalso; apply N; left; congruence|]. rewrite !orb_false_r. auto. }
  rewrite X. destruct (isin ks x); rewrite IH; auto; intros H; apply N; right; auto.
Qed.

Lemma split_out (ks : list ccall) c k : NoDup (map cl_id ks) -> In k ks -> cl_id k = c ->
  Permutation (map cl_id ks) (c :: map cl_id (filter (fun k => negb (cl_id k =? c)) ks)) /\
  ~ In c (map cl_id (filter (fun k => negb (cl_id k =? c)) ks)).
Proof.
  intros N H E. split.
  - induction ks as [|x ks IH]; [destruct H|]. cbn in N. apply NoDup_cons_iff in N. destruct N as [N1 N2]. cbn [filter map]. destruct (cl_id x =? c) eqn:Q; cbn [negb map].
    + apply Z.eqb_eq in Q. rewrite Q. constructor. replace (filter (fun k => negb (cl_id k =? c)) ks) with ks; auto.
      clear - N1 Q. induction ks as [|y ks IH]; cbn; auto. destruct (cl_id y =? c) eqn:R.
      * apply Z.eqb_eq in R. exfalso. apply N1. left. congruence.
      * cbn. f_equal. apply IH. intros X. apply N1. right; auto.
    + apply Z.eqb_neq in Q. destruct H as [->|H]; [congruence|]. rewrite (IH N2 H). constructor.
  - intros X. apply in_map_iff in X. destruct X as (y & A & B). apply filter_In in B. destruct B as [_ B]. rewrite A, Z.eqb_refl in B. discriminate.
Qed.

Lemma cstep_CI self s h os xh xos e s' o : CI self s h os xh xos -> cstep s e = Some (s', o) ->
  exists xh' xos', CI self s' (h ++ [(s, e)]) (os ++ o) (xh ++ xh') (xos ++ xos') /\
    (xh' = [] /\ (forall c old new, ~ In (CReply c 0 old new) o) \/
     exists e', xh' = [(c_x s, e')] /\ xstep (c_x s) e' = Some (c_x s', xos') /\ o = map (reply_of (c_issued s')) xos').
Proof.
  intros [L N U [CN CU] ID SA IS PM] H. destruct e as [c r parsed|c fail|e]; cbn [cstep] in H.
  - (* a call arrives *)
    destruct (existsb (Z.eqb c) (c_used s)) eqn:X; [discriminate H|]. assert (NU : ~ In c (c_used s)) by (rewrite <- existsb_used; congruence).
    assert (CI0 : forall o0, replied o0 = [c] -> CI self (mkCS (c_x s) (c_sampled s) (c_issued s) (c :: c_used s)) (h ++ [(s, CCall c r parsed)]) (os ++ o0) (xh ++ []) (xos ++ [])).
    { intros o0 E0. rewrite !app_nil_r. constructor; cbn [c_x c_sampled c_issued c_used]; auto.
      - intros d Hd. right. auto.
      - rewrite called_app. cbn. split; [|intros d Hd; apply in_app_iff in Hd; destruct Hd as [Hd|[->|[]]]; cbn; auto].
        apply (Permutation_NoDup (Permutation_cons_append (called h) c)). constructor; auto.
      - intros k Hk. destruct (SA k Hk) as (s1 & A & B). exists s1. rewrite in_app_iff. auto.
      - intros k Hk. destruct (IS k Hk) as ((s1 & A & B) & s2 & f & D & E). split; [exists s1|exists s2, f]; rewrite in_app_iff; auto.
      - rewrite called_app, replied_app, E0. cbn [called flat_map snd app]. rewrite PM. change (unserved (mkCS (c_x s) (c_sampled s) (c_issued s) (c :: c_used s))) with (unserved s).
        generalize (unserved s). intros l. rewrite <- !app_assoc. apply Permutation_app_head. apply Permutation_app_comm. }
    destruct (x_role (c_x s)) eqn:R.
    + destruct parsed.
      * injection H as <- <-. exists [], []. split; [|left; split; [auto|intros ? ? ? []]]. rewrite !app_nil_r. constructor; cbn [c_x c_sampled c_issued c_used]; auto.
        -- rewrite map_app, app_assoc. cbn. apply (Permutation_NoDup (Permutation_cons_append _ c)). constructor; auto.
        -- intros d Hd. rewrite map_app, app_assoc, in_app_iff in Hd. cbn in Hd. destruct Hd as [Hd|[->|[]]]; [right; auto|left; auto].
        -- rewrite called_app. cbn. split; [|intros d Hd; apply in_app_iff in Hd; destruct Hd as [Hd|[->|[]]]; cbn; auto].
           apply (Permutation_NoDup (Permutation_cons_append (called h) c)). constructor; auto.
        -- intros k Hk. apply in_app_iff in Hk. destruct Hk as [Hk|[<-|[]]].
           ++ destruct (SA k Hk) as (s1 & A & B). exists s1. rewrite in_app_iff. auto.
           ++ exists s. cbn. rewrite in_app_iff. cbn. auto.
        -- intros k Hk. destruct (IS k Hk) as ((s1 & A & B) & s2 & f & D & E). split; [exists s1|exists s2, f]; rewrite in_app_iff; auto.
        -- rewrite called_app. cbn [called flat_map snd app]. rewrite PM. rewrite !unserved_eq. cbn [c_x c_sampled c_issued]. rewrite map_app. cbn [map cl_id]. rewrite <- !app_assoc. apply Permutation_app_head, Permutation_app_head. apply Permutation_app_comm.
      * injection H as <- <-. exists [], []. split; [apply CI0; reflexivity|left; split; auto]. intros d a b [E|[]]. discriminate E.
    + injection H as <- <-. exists [], []. split; [apply CI0; reflexivity|left; split; auto]. intros d a b [E|[]]. discriminate E.
    + injection H as <- <-. exists [], []. split; [apply CI0; reflexivity|left; split; auto]. intros d a b [E|[]]. discriminate E.
  - (* the change is issued *)
    pose proof (find_isin (c_sampled s) c) as F. destruct (find (fun k => cl_id k =? c) (c_sampled s)) as [k|]; [|discriminate H]. destruct F as (_ & Fk & Fc).
    destruct (xstep (c_x s) (XReq (cl_req k) (Some c) fail)) as [[x o1]|] eqn:E; [|discriminate H]. cbv zeta in H. injection H as <- <-.
    pose proof (xl_step self _ _ _ _ _ _ L E) as L'. apply NoDup_app_iff in N. destruct N as (N1 & N2 & N3).
    destruct (split_out _ c k N2 Fk Fc) as [S1 S2].
    assert (NA : ~ In c (asked xh)) by (intros X; apply (N3 c X), in_map_iff; eauto).
    assert (CH : called (h ++ [(s, CIssue c fail)]) = called h) by (rewrite called_app; cbn; apply app_nil_r).
    exists [(c_x s, XReq (cl_req k) (Some c) fail)], o1. split; [|right; exists (XReq (cl_req k) (Some c) fail); auto].
    constructor; cbn [c_x c_sampled c_issued c_used]; auto.
    + rewrite asked_app. cbn. rewrite <- app_assoc. cbn.
      apply (Permutation_NoDup (l := asked xh ++ map cl_id (c_sampled s))); [apply Permutation_app_head; auto|]. apply NoDup_app_iff. auto.
    + intros d Hd. apply U. rewrite asked_app in Hd. cbn in Hd. rewrite <- app_assoc in Hd. apply in_app_iff in Hd. apply in_app_iff. destruct Hd as [Hd|Hd]; auto. right.
      apply (Permutation_in d (Permutation_sym S1)). exact Hd.
    + rewrite CH. auto.
    + rewrite map_app. cbn. rewrite Fc. apply (Permutation_NoDup (Permutation_cons_append _ c)). constructor; auto. intros X. apply in_map_iff in X. destruct X as (k' & K1 & K2).
      destruct (IS k' K2) as (_ & s2 & f & _ & X). apply NA. unfold asked. apply in_flat_map. eexists. split; [exact X|]. cbn. left. auto.
    + intros k' Hk. apply filter_In in Hk. destruct Hk as [Hk _]. destruct (SA k' Hk) as (s1 & A & B). exists s1. rewrite in_app_iff. auto.
    + intros k' Hk. apply in_app_iff in Hk. destruct Hk as [Hk|[<-|[]]].
      * destruct (IS k' Hk) as ((s1 & A & B) & s2 & f & D & G). split; [exists s1|exists s2, f]; rewrite !in_app_iff; auto.
      * destruct (SA k Fk) as (s1 & A & B). split; [exists s1; rewrite in_app_iff; auto|]. exists s, fail. rewrite !in_app_iff. rewrite Fc. cbn. auto.
    + rewrite CH, replied_app, replied_map, unserved_eq. cbn [c_x c_sampled c_issued]. rewrite PM, <- app_assoc. apply Permutation_app_head. rewrite unserved_eq.
      pose proof (step_perm self _ _ _ _ _ _ L E) as P. cbn in P. apply (perm_filter (isin (c_issued s ++ [k]))) in P. rewrite !filter_app in P.
      rewrite (filter_isin_snoc (c_issued s) k c (pend (c_x s)) Fc) in P by (intros X; apply NA; eapply pend_asked; eauto).
      assert (X : isin (c_issued s ++ [k]) c = true) by (apply isin_spec; rewrite map_app, in_app_iff; cbn; auto).
      cbn [filter] in P. rewrite X in P. rewrite S1. 
      rewrite (Permutation_app_comm (filter (isin (c_issued s ++ [k])) (answered o1))), <- app_assoc.
      rewrite (Permutation_app_comm (filter (isin (c_issued s ++ [k])) (pend x))), <- P. cbn.
      rewrite (Permutation_app_comm (filter (isin (c_issued s)) (pend (c_x s))) [c]). cbn. apply Permutation_middle.
  - (* anything else *)
    cbv zeta in H. match type of H with (if ?b then _ else _) = _ => destruct b eqn:FR end; [|discriminate H].
    destruct (xstep (c_x s) e) as [[x o1]|] eqn:E; [|discriminate H]. injection H as <- <-. pose proof (xl_step self _ _ _ _ _ _ L E) as L'.
    assert (CH : called (h ++ [(s, CNode e)]) = called h) by (rewrite called_app; cbn; apply app_nil_r).
    assert (AU : forall d, In d (asked [(c_x s, e)]) -> ~ In d (c_used s) /\ In d (match e with XReq _ (Some c) _ => c :: c_used s | _ => c_used s end)).
    { intros d Hd. unfold asked in Hd. cbn in Hd. rewrite app_nil_r in Hd. destruct e; try destruct Hd. destruct done; [|destruct Hd]. destruct Hd as [<-|[]].
      apply negb_true_iff in FR. split; [rewrite <- existsb_used; congruence|left; auto]. }
    assert (UU : forall d, In d (c_used s) -> In d (match e with XReq _ (Some c) _ => c :: c_used s | _ => c_used s end)).
    { intros d Hd. destruct e; auto. destruct done; auto. right; auto. }
    assert (A1 : NoDup (asked [(c_x s, e)])) by (unfold asked; cbn; rewrite app_nil_r; destruct e; try constructor; destruct done; repeat constructor; auto).
    exists [(c_x s, e)], o1. split; [|right; exists e; auto].
    constructor; cbn [c_x c_sampled c_issued c_used]; auto.
    + rewrite asked_app. apply (Permutation_NoDup (l := asked [(c_x s, e)] ++ asked xh ++ map cl_id (c_sampled s))).
      * rewrite app_assoc. apply Permutation_app_tail, Permutation_app_comm.
      * apply NoDup_app_iff. split; auto. split; auto. intros d D1 D2. apply (proj1 (AU d D1)). auto.
    + intros d Hd. rewrite asked_app, <- app_assoc, in_app_iff in Hd. rewrite in_app_iff in Hd. destruct Hd as [Hd|[Hd|Hd]]; [apply UU, U, in_app_iff; auto|apply AU; auto|apply UU, U, in_app_iff; auto].
    + rewrite CH. split; auto.
    + intros k Hk. destruct (SA k Hk) as (s1 & A & B). exists s1. rewrite in_app_iff. auto.
    + intros k Hk. destruct (IS k Hk) as ((s1 & A & B) & s2 & f & D & G). split; [exists s1|exists s2, f]; rewrite !in_app_iff; auto.
    + rewrite CH, replied_app, replied_map, unserved_eq. cbn [c_x c_sampled c_issued]. rewrite PM, <- app_assoc. apply Permutation_app_head. rewrite unserved_eq.
      pose proof (step_perm self _ _ _ _ _ _ L E) as P. apply (perm_filter (isin (c_issued s))) in P. rewrite !filter_app in P.
      assert (Z0 : filter (isin (c_issued s)) (asked [(c_x s, e)]) = []).
      { destruct (filter (isin (c_issued s)) (asked [(c_x s, e)])) as [|d l] eqn:Q; auto. exfalso.
        assert (Y : In d (filter (isin (c_issued s)) (asked [(c_x s, e)]))) by (rewrite Q; left; auto). apply filter_In in Y. destruct Y as [Y1 Y2].
        apply isin_spec, in_map_iff in Y2. destruct Y2 as (k & K1 & K2). destruct (IS k K2) as (_ & s2 & f & _ & X).
        apply (proj1 (AU d Y1)). apply U, in_app_iff. left. unfold asked. apply in_flat_map. eexists. split; [exact X|]. cbn. auto. }
      rewrite Z0, app_nil_r in P. rewrite P.
      rewrite Permutation_app_comm, <- app_assoc. apply Permutation_app_head. apply Permutation_app_comm.
Qed.

Lemma clife_CI self s h os : clife self s h os -> exists xh xos, CI self s h os xh xos.
Proof.
  induction 1 as [|s h os e s' o L [xh [xos I]] E].
  - exists [], []. constructor; cbn; [apply xl_start|constructor|intros ? []|split; [constructor|intros ? []]|constructor|intros ? []|intros ? []|constructor].
  - destruct (cstep_CI _ _ _ _ _ _ _ _ _ I E) as (xh' & xos' & I' & _). eauto.
Qed.


Lemma asked_unique xh s0 s1 r r' c f f' : NoDup (asked xh) -> In (s0, XReq r (Some c) f) xh -> In (s1, XReq r' (Some c) f') xh -> (s0, XReq r (Some c) f) = (s1, XReq r' (Some c) f').
Proof.
  intros N Ha Hb. revert N Ha Hb. induction xh as [|y l IH]; intros N Ha Hb; [destruct Ha|]. cbn in N. apply NoDup_app_iff in N. destruct N as (_ & N & D).
  assert (X : forall s r f, In (s, XReq r (Some c) f) l -> In c (asked l)) by (intros s r0 f0 Q; unfold asked; apply in_flat_map; eexists; split; [exact Q|left; auto]).
  destruct Ha as [->|Ha], Hb as [Hb|Hb]; auto.
  - exfalso. apply (D c); [left; auto|]. eapply X; eauto.
  - subst y. exfalso. apply (D c); [left; auto|]. eapply X; eauto.
Qed.
Lemma called_unique h s0 s1 r r' c b b' : NoDup (called h) -> In (s0, CCall c r b) h -> In (s1, CCall c r' b') h -> (s0, CCall c r b) = (s1, CCall c r' b').
Proof.
  intros N Ha Hb. revert N Ha Hb. induction h as [|y l IH]; intros N Ha Hb; [destruct Ha|]. cbn in N. apply NoDup_app_iff in N. destruct N as (_ & N & D).
  assert (X : forall s r f, In (s, CCall c r f) l -> In c (called l)) by (intros s r0 f0 Q; unfold called; apply in_flat_map; eexists; split; [exact Q|left; auto]).
  destruct Ha as [->|Ha], Hb as [Hb|Hb]; auto.
  - exfalso. apply (D c); [left; auto|]. eapply X; eauto.
  - subst y. exfalso. apply (D c); [left; auto|]. eapply X; eauto.
Qed.

Lemma new_peers_spec r old p : In p (new_peers r old) <-> wanted r old p.
Proof.
  destruct r as [q|q|l]; cbn.
  - destruct (existsb (Z.eqb q) old) eqn:E.
    + apply existsb_used in E. split; auto. intros [->|H]; auto.
    + rewrite in_app_iff. cbn. split; [intros [H|[->|[]]]; auto|intros [->|H]; auto].
  - rewrite filter_In, negb_true_iff, Z.eqb_neq. tauto.
  - unfold to_set. apply nodup_In.
Qed.
