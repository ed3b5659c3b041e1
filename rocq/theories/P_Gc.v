(** C68: gc_raft_data deletes the data of one group, wholly or not at all for each of its directories,
    for the model of Gc.v. *)
From Verif Require Import Base Gc GcProofs.

Section P.
Variables (find_log : text -> option lkind) (find_snap : text -> bool) (find_meta : text -> option mkind).
Notation log_create := (log_create find_log).
Notation snap_create := (snap_create find_snap).
Notation meta_create := (meta_create find_meta).
Notation gc_raft_data := (gc_raft_data find_log find_snap find_meta).

(** The directories and the merged store of a group are those the storages created from the same URIs use *)
Definition log_dir (c : gcopts) (p : text) : Prop := log_create (c_log c) = Some (LSegment, p).
Definition snap_dir (c : gcopts) (p : text) : Prop := snap_create (c_snap c) = Some p.
Definition meta_dir (c : gcopts) (p : text) : Prop :=
  meta_create (c_meta c) = Some (MFile, p) \/ exists x m, meta_create (c_meta c) = Some (MMixed, x) /\ parse_mixed x = Some (m, p).
Definition meta_store (c : gcopts) (p : text) : Prop :=
  meta_create (c_meta c) = Some (MMerged, p) \/ exists x s, meta_create (c_meta c) = Some (MMixed, x) /\ parse_mixed x = Some (p, s).
Definition group_dir (c : gcopts) (p : text) : Prop := log_dir c p \/ snap_dir c p \/ meta_dir c p.
(** all three URIs are understood *)
Definition uris_good (c : gcopts) : Prop :=
  log_create (c_log c) <> None /\ snap_create (c_snap c) <> None /\ meta_create (c_meta c) <> None /\
  forall x, meta_create (c_meta c) = Some (MMixed, x) -> parse_mixed x <> None.

(** One directory: whatever happens, it is there as before or gone; success leaves nothing of it, and no
    leftovers of earlier attempts *)
Theorem directory_whole_or_gone : forall path o f f' r, gc_dir path o f = (f', r) ->
  (f' path = f path \/ f' path = None) /\ (r = GOk -> f' path = None /\ f' (path ++ s_tmp) = None) /\
  forall q, q <> path -> q <> path ++ s_tmp -> f' q = f q.
Proof. intros path o f f' r H. destruct (gc_form _ _ _ _ _ H) as (a & b & c & _). auto. Qed.

Record part (D : text -> Prop) (K : text -> Prop) (g : Z) (w w' : world) (r : gres) : Prop := {
  pt_whole : forall q, (forall p, D p -> q <> p ++ s_tmp) -> w_fs w' q = w_fs w q \/ w_fs w' q = None;
  pt_other : forall q, (forall p, D p -> q <> p /\ q <> p ++ s_tmp) -> w_fs w' q = w_fs w q;
  pt_done : r = GOk -> forall q, D q -> w_fs w' q = None;
  pt_none : r = GOk -> forall q, w_fs w q = None -> w_fs w' q = None;
  pt_kv : forall q h, (K q -> h <> g) -> k_db (w_kv w' q) h = k_db (w_kv w q) h;
  pt_inst : forall q, k_inst (w_kv w' q) = k_inst (w_kv w q);
  pt_gone : r = GOk -> forall q, K q -> k_inst (w_kv w q) <> None -> k_db (w_kv w' q) g = None }.
Lemma part_id : forall (D K : text -> Prop) g w r, (r = GOk -> (forall q, ~ D q) /\ (forall q, K q -> k_inst (w_kv w q) = None)) -> part D K g w w r.
Proof. intros D K g w r H. constructor; auto. - intros E q Hq. exfalso. exact (proj1 (H E) q Hq). - intros E q Hq N. exfalso. exact (N (proj2 (H E) q Hq)). Qed.
Lemma part_dir : forall (D : text -> Prop) (K : text -> Prop) g w p o, (forall q, D q <-> q = p) -> (forall q, ~ K q) -> part D K g w (fst (on_fs (gc_dir p o (w_fs w)) w)) (snd (on_fs (gc_dir p o (w_fs w)) w)).
Proof.
  intros D K g w p o HD HK. unfold on_fs. cbn [fst snd]. destruct (gc_dir p o (w_fs w)) as [f r] eqn:E. destruct (gc_form _ _ _ _ _ E) as (a & b & c & d). cbn [fst snd]. assert (Dp : D p) by (apply HD; auto).
  constructor; cbn [set_fs w_fs w_kv]; auto.
  - intros q Hq. destruct (list_eq_dec Z.eq_dec q p) as [->|N]; auto.
  - intros q Hq. destruct (Hq p Dp). apply c; auto.
  - intros K1 q Hq. apply HD in Hq. subst. apply b. auto.
  - intros K1 q Hq. destruct (list_eq_dec Z.eq_dec q p) as [->|N]; [apply b; auto|]. destruct (list_eq_dec Z.eq_dec q (p ++ s_tmp)) as [->|N2]; [apply b; auto|]. rewrite c; auto.
  - intros K1 q Hq. exfalso. exact (HK q Hq).
Qed.
Lemma log_part : forall c o w, part (log_dir c) (fun _ => False) (c_group c) w (fst (log_destroy find_log (c_log c) o w)) (snd (log_destroy find_log (c_log c) o w)).
Proof.
  intros c o w. unfold log_destroy, log_dir, Gc.log_create. destruct (parse_uri (c_log c)) as [[p x]|]; [destruct (find_log p) as [[]|]|].
  - apply part_dir; auto. intros q. split; [intros H; injection H as ->; auto|intros ->; auto].
  - apply part_id. intros _. split; [intros q H; discriminate|intros q []].
  - apply part_id. discriminate.
  - apply part_id. discriminate.
Qed.
Lemma snap_part : forall c o w, part (snap_dir c) (fun _ => False) (c_group c) w (fst (snap_destroy find_snap (c_snap c) o w)) (snd (snap_destroy find_snap (c_snap c) o w)).
Proof.
  intros c o w. unfold snap_destroy, snap_dir, Gc.snap_create. destruct (parse_uri (c_snap c)) as [[p x]|]; [destruct (find_snap p)|].
  - apply part_dir; auto. intros q. split; [intros H; injection H as ->; auto|intros ->; auto].
  - apply part_id. discriminate.
  - apply part_id. discriminate.
Qed.
Lemma kv_part : forall m g o w, part (fun _ => False) (fun q => q = m) g w (fst (remove_kv m g o w)) (snd (remove_kv m g o w)).
Proof.
  intros m g o w. unfold remove_kv. destruct (k_inst (w_kv w m)) as [[]|] eqn:I.
  - assert (X : forall r, part (fun _ => False) (fun q => q = m) g w (kv_erase m g w) r).
    { intros r. constructor; cbn [kv_erase w_fs w_kv]; auto; [intros _ q []| | |].
      - intros q h Hq. destruct (teq q m) eqn:T; auto. apply teq_eq in T. cbn [k_db]. destruct (Z.eqb_spec h g) as [->|]; auto. exfalso. exact (Hq T eq_refl).
      - intros q. destruct (teq q m); auto.
      - intros _ q -> _. rewrite teq_refl. cbn [k_db]. rewrite Z.eqb_refl. auto. }
    destruct o; cbn [fst snd]; auto; apply part_id; discriminate.
  - apply part_id. discriminate.
  - cbn [fst snd]. apply part_id. intros _. split; [intros q []|]. intros q ->. auto.
Qed.
Lemma part_seq : forall (D K D2 K2 : text -> Prop) g w w1 w2 r2, part D (fun _ => False) g w w1 GOk -> part (fun _ => False) K2 g w1 w2 r2 -> (forall q, D q <-> D2 q) -> (forall q, K q <-> K2 q) -> part D2 K g w w2 r2.
Proof.
  intros D K D2 K2 g w w1 w2 r2 A B HD HK. destruct A as [a1 a2 a3 a4 a5 a6 a7]. destruct B as [b1 b2 b3 b4 b5 b6 b7].
  assert (F : forall q, w_fs w2 q = w_fs w1 q) by (intros q; apply b2; intros p []).
  constructor; intros.
  - rewrite F. apply a1. intros p Hp. apply H. apply HD. auto.
  - rewrite F. apply a2. intros p Hp. apply H. apply HD. auto.
  - rewrite F. apply a3; auto. apply HD. auto.
  - rewrite F. apply a4; auto.
  - rewrite b5; [apply a5; intros []|]. intros k. apply H. apply HK. auto.
  - rewrite b6. auto.
  - apply b7; auto; [apply HK; auto|]. rewrite a6. auto.
Qed.
Lemma meta_part : forall c o ko w, part (meta_dir c) (meta_store c) (c_group c) w (fst (meta_destroy find_meta (c_meta c) (c_group c) o ko w)) (snd (meta_destroy find_meta (c_meta c) (c_group c) o ko w)).
Proof.
  intros c o ko w. unfold meta_destroy, meta_dir, meta_store, Gc.meta_create. destruct (parse_uri (c_meta c)) as [[p x]|]; [|apply part_id; discriminate]. destruct (find_meta p) as [[]|]; [| | |apply part_id; discriminate].
  - apply part_dir.
    + intros q. split; [intros [H|(y & m & H & _)]; [injection H as ->; auto|discriminate]|intros ->; auto].
    + intros q [H|(y & s & H & _)]; discriminate.
  - pose proof (kv_part x (c_group c) ko w) as A. destruct A as [a1 a2 a3 a4 a5 a6 a7]. constructor.
    + intros q Hq. left. apply a2. intros y [].
    + intros q Hq. apply a2. intros y [].
    + intros _ q [H|(y & m & H & _)]; discriminate.
    + exact a4.
    + intros q h Hq. apply a5. intros ->. apply Hq. auto.
    + exact a6.
    + intros E q [H|(y & s & H & _)] N; [injection H as <-; auto|discriminate].
  - destruct (parse_mixed x) as [[m s]|] eqn:M; [|apply part_id; discriminate].
    assert (HD : forall q, q = s <-> (Some (MMixed, x) = Some (MFile, q) \/ exists x0 m0, Some (MMixed, x) = Some (MMixed, x0) /\ parse_mixed x0 = Some (m0, q))).
    { intros q. split; [intros ->; right; exists x, m; auto|]. intros [H|(y & m0 & H & H2)]; [discriminate|]. injection H as <-. congruence. }
    assert (HK : forall q, (Some (MMixed, x) = Some (MMerged, q) \/ exists x0 s0, Some (MMixed, x) = Some (MMixed, x0) /\ parse_mixed x0 = Some (q, s0)) <-> q = m).
    { intros q. split; [|intros ->; right; exists x, s; auto]. intros [H|(y & s0 & H & H2)]; [discriminate|]. injection H as <-. congruence. }
    pose proof (part_dir (fun q => q = s) (fun _ => False) (c_group c) w s o (fun q => iff_refl _) (fun q k => k)) as A. destruct (on_fs (gc_dir s o (w_fs w)) w) as [w1 r1] eqn:E. cbn [fst snd] in A.
    assert (Y : r1 <> GOk -> part (fun p0 => Some (MMixed, x) = Some (MFile, p0) \/ exists x0 m0, Some (MMixed, x) = Some (MMixed, x0) /\ parse_mixed x0 = Some (m0, p0))
       (fun p0 => Some (MMixed, x) = Some (MMerged, p0) \/ exists x0 s0, Some (MMixed, x) = Some (MMixed, x0) /\ parse_mixed x0 = Some (p0, s0)) (c_group c) w w1 r1).
    { intros N. destruct A as [a1 a2 a3 a4 a5 a6 a7]. constructor.
      - intros q Hq. apply a1. intros p0 Hp. apply Hq. apply HD. auto.
      - intros q Hq. apply a2. intros p0 Hp. apply Hq. apply HD. auto.
      - intros Z0. contradiction.
      - intros Z0. contradiction.
      - intros q h Hq. apply a5. intros [].
      - exact a6.
      - intros Z0. contradiction. }
    destruct r1; [|apply Y; discriminate..]. eapply part_seq; [exact A|apply kv_part|exact HD|exact HK].
Qed.

Lemma gc_parts : forall c x w w' r, gc_raft_data c x w = (w', r) ->
  exists w1 a, part (log_dir c) (fun _ => False) (c_group c) w w1 a /\
  ((a = GDied /\ w' = w1 /\ r = None) \/ exists w2 b, part (meta_dir c) (meta_store c) (c_group c) w1 w2 b /\
    ((b = GDied /\ w' = w2 /\ r = None) \/ exists d, part (snap_dir c) (fun _ => False) (c_group c) w2 w' d /\ (x_snap x = well -> snap_create (c_snap c) <> None -> d = GOk) /\
       (r = Some 0 <-> a = GOk /\ b = GOk /\ d = GOk) /\ (r = None <-> d = GDied) /\ (r <> None -> r = Some 0 \/ r = Some (-1)))).
Proof.
  intros c x w w' r H. unfold Gc.gc_raft_data in H. pose proof (log_part c (x_log x) w) as A. destruct (log_destroy find_log (c_log c) (x_log x) w) as [w1 a]. cbn [fst snd] in A. exists w1, a. split; auto.
  pose proof (meta_part c (x_meta x) (x_kv x) w1) as B. destruct (meta_destroy find_meta (c_meta c) (c_group c) (x_meta x) (x_kv x) w1) as [w2 b]. cbn [fst snd] in B.
  pose proof (snap_part c (x_snap x) w2) as C.
  assert (W : x_snap x = well -> snap_create (c_snap c) <> None -> snd (snap_destroy find_snap (c_snap c) (x_snap x) w2) = GOk).
  { intros E N. unfold snap_destroy, Gc.snap_create in *. destruct (parse_uri (c_snap c)) as [[p y]|]; [|contradiction]. destruct (find_snap p); [|contradiction]. rewrite E. unfold on_fs. cbn [snd]. apply gc_well. }
  destruct (snap_destroy find_snap (c_snap c) (x_snap x) w2) as [w3 d]. cbn [fst snd] in C, W.
  destruct a; [right; exists w2, b; split; [exact B|]|right; exists w2, b; split; [exact B|]|left; injection H as <- <-; auto];
  (destruct b; [right; exists d; split|right; exists d; split|left; injection H as <- <-; auto]);
  (destruct d; injection H as <- <-; [| |]); try exact C; (split; [exact W|]); (split; [|split]); try tauto; try (split; [discriminate|]); try discriminate; try (intros (? & ? & ?); discriminate); try (split; intros; discriminate); intuition discriminate.
Qed.

(** It returned 0: no directory of the group is left, and nothing of it in the merged store if this
    process has that open; the URIs were understood. *)
Theorem success_means_gone : forall c x w w', gc_raft_data c x w = (w', Some 0) ->
  (forall p, group_dir c p -> w_fs w' p = None) /\
  (forall m, meta_store c m -> k_inst (w_kv w m) <> None -> k_db (w_kv w' m) (c_group c) = None).
Proof.
  intros c x w w' H. destruct (gc_parts _ _ _ _ _ H) as (w1 & a & A & [(_ & _ & E)|(w2 & b & B & [(_ & _ & E)|(d & C & _ & R & _)])]); try discriminate.
  destruct (proj1 R eq_refl) as (-> & -> & ->). split.
  - intros p [Hp|[Hp|Hp]]; [apply (pt_none _ _ _ _ _ _ C); auto; apply (pt_none _ _ _ _ _ _ B); auto; apply (pt_done _ _ _ _ _ _ A); auto|apply (pt_done _ _ _ _ _ _ C); auto|].
    apply (pt_none _ _ _ _ _ _ C); auto. apply (pt_done _ _ _ _ _ _ B); auto.
  - intros m Hm Hi. rewrite (pt_kv _ _ _ _ _ _ C) by (intros []). apply (pt_gone _ _ _ _ _ _ B); auto. rewrite (pt_inst _ _ _ _ _ _ A). auto.
Qed.
(** However it ends, by an error or a crash at any point too: a directory is there as it was or gone (never
    half of it), unless it is named like another one of the group with ".tmp". *)
Theorem every_directory_whole_or_gone : forall c x w w' r q, gc_raft_data c x w = (w', r) -> (forall p, group_dir c p -> q <> p ++ s_tmp) ->
  w_fs w' q = w_fs w q \/ w_fs w' q = None.
Proof.
  intros c x w w' r q H Hq. destruct (gc_parts _ _ _ _ _ H) as (w1 & a & A & T).
  assert (S1 : w_fs w1 q = w_fs w q \/ w_fs w1 q = None) by (apply (pt_whole _ _ _ _ _ _ A); intros p Hp; apply Hq; unfold group_dir; auto).
  destruct T as [(_ & -> & _)|(w2 & b & B & T)]; auto.
  assert (S2 : w_fs w2 q = w_fs w1 q \/ w_fs w2 q = None) by (apply (pt_whole _ _ _ _ _ _ B); intros p Hp; apply Hq; unfold group_dir; auto).
  destruct T as [(_ & -> & _)|(d & C & _)]; [destruct S1, S2; auto; [left|right]; congruence|].
  assert (S3 : w_fs w' q = w_fs w2 q \/ w_fs w' q = None) by (apply (pt_whole _ _ _ _ _ _ C); intros p Hp; apply Hq; unfold group_dir; auto).
  destruct S3 as [S3|]; auto. destruct S2 as [S2|]; [|right; congruence]. destruct S1; [left|right]; congruence.
Qed.
(** Nothing else is touched: no other directory, no other group of a merged store. *)
Theorem others_are_untouched : forall c x w w' r, gc_raft_data c x w = (w', r) ->
  (forall q, (forall p, group_dir c p -> q <> p /\ q <> p ++ s_tmp) -> w_fs w' q = w_fs w q) /\
  (forall q h, (meta_store c q -> h <> c_group c) -> k_db (w_kv w' q) h = k_db (w_kv w q) h).
Proof.
  intros c x w w' r H. destruct (gc_parts _ _ _ _ _ H) as (w1 & a & A & T). split.
  - intros q Hq. assert (S1 : w_fs w1 q = w_fs w q) by (apply (pt_other _ _ _ _ _ _ A); intros p Hp; apply Hq; unfold group_dir; auto).
    destruct T as [(_ & -> & _)|(w2 & b & B & T)]; auto.
    assert (S2 : w_fs w2 q = w_fs w1 q) by (apply (pt_other _ _ _ _ _ _ B); intros p Hp; apply Hq; unfold group_dir; auto).
    destruct T as [(_ & -> & _)|(d & C & _)]; [congruence|]. rewrite (pt_other _ _ _ _ _ _ C); [congruence|]. intros p Hp. apply Hq. unfold group_dir. auto.
  - intros q h Hq. assert (S1 : k_db (w_kv w1 q) h = k_db (w_kv w q) h) by (apply (pt_kv _ _ _ _ _ _ A); intros []).
    destruct T as [(_ & -> & _)|(w2 & b & B & T)]; auto.
    assert (S2 : k_db (w_kv w2 q) h = k_db (w_kv w1 q) h) by (apply (pt_kv _ _ _ _ _ _ B); auto).
    destruct T as [(_ & -> & _)|(d & C & _)]; [congruence|]. rewrite (pt_kv _ _ _ _ _ _ C) by (intros []). congruence.
Qed.
(** Whatever earlier attempts left behind, an attempt without failures succeeds, if the URIs are
    understood and the merged store, if open at all, is initialized. *)
Theorem retry_succeeds : forall c w, uris_good c -> (forall m, meta_store c m -> k_inst (w_kv w m) <> Some false) ->
  snd (gc_raft_data c (mkO well well KvDone well) w) = Some 0.
Proof.
  intros c w (U1 & U2 & U3 & U4) HK. unfold Gc.gc_raft_data. cbn [x_log x_meta x_kv x_snap].
  assert (A : forall w, snd (log_destroy find_log (c_log c) well w) = GOk /\ w_kv (fst (log_destroy find_log (c_log c) well w)) = w_kv w).
  { intros w0. unfold log_destroy, Gc.log_create in *. destruct (parse_uri (c_log c)) as [[p y]|]; [|contradiction]. destruct (find_log p) as [[]|]; [|auto|contradiction]. unfold on_fs. cbn [fst snd]. split; [apply gc_well|reflexivity]. }
  destruct (A w) as [A1 A2]. destruct (log_destroy find_log (c_log c) well w) as [w1 a]. cbn [fst snd] in *. subst a.
  assert (K : forall p, k_inst (w_kv w1 p) <> Some false -> forall w2, w_kv w2 = w_kv w1 -> snd (remove_kv p (c_group c) KvDone w2) = GOk).
  { intros p Hp w2 E. unfold remove_kv. rewrite E. destruct (k_inst (w_kv w1 p)) as [[]|]; auto. contradiction. }
  rewrite <- A2 in HK. assert (B : snd (meta_destroy find_meta (c_meta c) (c_group c) well KvDone w1) = GOk).
  { unfold meta_destroy, meta_store, Gc.meta_create in *. destruct (parse_uri (c_meta c)) as [[p y]|]; [|contradiction]. destruct (find_meta p) as [[]|]; [| | |contradiction].
    - unfold on_fs. cbn [snd]. apply gc_well.
    - apply K; auto.
    - destruct (parse_mixed y) as [[m s]|] eqn:M; [|exfalso; exact (U4 y eq_refl M)]. unfold on_fs. rewrite gc_well. apply K; auto. apply HK. right. exists y, s. auto. }
  destruct (meta_destroy find_meta (c_meta c) (c_group c) well KvDone w1) as [w2 b]. cbn [snd] in B. subst b.
  assert (C : snd (snap_destroy find_snap (c_snap c) well w2) = GOk).
  { unfold snap_destroy, Gc.snap_create in *. destruct (parse_uri (c_snap c)) as [[p y]|]; [|contradiction]. destruct (find_snap p); [|contradiction]. unfold on_fs. cbn [snd]. apply gc_well. }
  destruct (snap_destroy find_snap (c_snap c) well w2) as [w3 d]. cbn [snd] in C. subst d. reflexivity.
Qed.
(** A part that fails does not keep the others from being deleted: whatever happened to the log and the
    meta data, the snapshots go if nothing goes wrong with them. *)
Theorem a_failure_does_not_stop_the_rest : forall c x w w' z p, gc_raft_data c x w = (w', Some z) -> x_snap x = well -> snap_dir c p -> w_fs w' p = None.
Proof.
  intros c x w w' z p H E Hp. destruct (gc_parts _ _ _ _ _ H) as (w1 & a & A & [(_ & _ & K)|(w2 & b & B & [(_ & _ & K)|(d & C & W & _)])]); try discriminate.
  apply (pt_done _ _ _ _ _ _ C); auto. apply W; auto. unfold snap_dir in Hp. congruence.
Qed.
(** A URI nobody understands: NULL from create, EINVAL from destroy, and nothing is touched. *)
Theorem bad_uri_is_refused : forall uri o w, log_create uri = None -> log_destroy find_log uri o w = (w, GErr).
Proof. intros uri o w H. unfold log_destroy, Gc.log_create in *. destruct (parse_uri uri) as [[p x]|]; auto. destruct (find_log p); [discriminate|auto]. Qed.
End P.

Definition plain (s : text) : Prop := forallb (fun c => negb (is_space c)) s = true.
(** protocol://parameter, without white space and without ':' in the protocol, is read as written. *)
Theorem uri_is_read_as_written : forall p x, p <> [] -> plain p -> ~ In 58 p -> plain x -> parse_uri (p ++ s_sep ++ x) = Some (p, x).
Proof.
  intros p x N Hp Hc Hx. unfold parse_uri, s_sep. rewrite cut_app by auto. rewrite trim_none by auto. rewrite filter_none by auto. destruct p; [contradiction|reflexivity].
Qed.
Theorem no_protocol_no_storage : forall s, ~ In 58 s -> parse_uri s = None.
Proof. intros s H. unfold parse_uri, s_sep. rewrite cut_none; auto. Qed.
(** merged_path=...&&single_path=... likewise, without ':', and without '&' in the first path *)
Theorem mixed_path_is_read_as_written : forall m s, ~ In 58 m -> ~ In 58 s -> ~ In 38 m -> parse_mixed (s_merged ++ m ++ s_single ++ s) = Some (m, s).
Proof.
  intros m s H1 H2 H3. unfold parse_mixed, s_sep. rewrite cut_none.
  - assert (E : cut s_merged (s_merged ++ m ++ s_single ++ s) = Some ([], m ++ s_single ++ s)). { pose proof (strip_app s_merged (m ++ s_single ++ s)) as S. unfold s_merged in *. cbn [app] in *. cbn [cut]. rewrite S. reflexivity. }
    rewrite E. unfold s_single. apply cut_app. auto.
  - intros K. unfold s_merged, s_single in K. repeat (rewrite in_app_iff in K || cbn [In] in K). intuition discriminate.
Qed.

(** * Cases.  "local", "local-merged", "local-mixed" are given the numbers 1, 2, 3. *)
Definition fl (p : text) : option lkind := if teq p [1] then Some LSegment else if teq p [9] then Some LMemory else None.
Definition fsn (p : text) : bool := teq p [1].
Definition fm (p : text) : option mkind := if teq p [1] then Some MFile else if teq p [2] then Some MMerged else if teq p [3] then Some MMixed else None.
Definition demo_opts : gcopts := mkG 7 ([1] ++ s_sep ++ [101]) ([3] ++ s_sep ++ s_merged ++ [104] ++ s_single ++ [102]) ([1] ++ s_sep ++ [103]).
Definition full (ps : list text) : fsys := fun q => if existsb (teq q) ps then Some [(1, 10); (2, 20)] else None.
Definition demo_world (inst : option bool) : world := mkW (full [[101]; [102]; [103]; [105]; [101] ++ s_tmp]) (fun q => mkKv inst (fun h => if h <? 10 then Some h else None)).
Example gc_case : uris_good fl fsn fm demo_opts /\ group_dir fl fsn fm demo_opts [101] /\ group_dir fl fsn fm demo_opts [102] /\ group_dir fl fsn fm demo_opts [103] /\ meta_store fm demo_opts [104] /\
  exists w', gc_raft_data fl fsn fm demo_opts (mkO well well KvDone well) (demo_world (Some true)) = (w', Some 0) /\
    w_fs w' [101] = None /\ w_fs w' [105] = Some [(1, 10); (2, 20)] /\ k_db (w_kv w' [104]) 7 = None /\ k_db (w_kv w' [104]) 8 = Some 8.
Proof.
  split; [split; [vm_compute; discriminate|split; [vm_compute; discriminate|split; [vm_compute; discriminate|]]]; intros x H; vm_compute in H; injection H as <-; vm_compute; discriminate|].
  split; [left; vm_compute; reflexivity|]. split; [right; right; right; exists (s_merged ++ [104] ++ s_single ++ [102]), [104]; split; vm_compute; reflexivity|]. split; [right; left; vm_compute; reflexivity|].
  split; [right; exists (s_merged ++ [104] ++ s_single ++ [102]), [102]; split; vm_compute; reflexivity|].
  eexists. split; [reflexivity|]. repeat split; vm_compute; reflexivity.
Qed.
(** The process dies while the renamed directory is being removed; then it is tried again. *)
Example gc_crash_case : exists w' w'', gc_raft_data fl fsn fm demo_opts (mkO (mkGco DDone RDone (DDie (Z.eqb 2))) well KvDone well) (demo_world (Some true)) = (w', None) /\
  w_fs w' [101] = None /\ w_fs w' ([101] ++ s_tmp) = Some [(2, 20)] /\ w_fs w' [103] = Some [(1, 10); (2, 20)] /\
  gc_raft_data fl fsn fm demo_opts (mkO well well KvDone well) w' = (w'', Some 0) /\ w_fs w'' ([101] ++ s_tmp) = None /\ w_fs w'' [103] = None.
Proof. eexists. eexists. split; [reflexivity|]. repeat split; vm_compute; reflexivity. Qed.

(** * Refuted *)
(** 0 is returned although the merged store still has the group's term and vote: this process has not
    opened the store (raft_meta.cpp:88-90). *)
Theorem merged_meta_not_opened_refuted : exists w', gc_raft_data fl fsn fm demo_opts (mkO well well KvDone well) (demo_world None) = (w', Some 0) /\
  meta_store fm demo_opts [104] /\ k_db (w_kv w' [104]) (c_group demo_opts) = Some 7.
Proof. eexists. split; [reflexivity|]. split; [right; exists (s_merged ++ [104] ++ s_single ++ [102]), [102]; split; vm_compute; reflexivity|vm_compute; reflexivity]. Qed.
(** A directory of another group named like one of this group with ".tmp" is deleted. *)
Theorem sibling_with_tmp_refuted : exists w', gc_raft_data fl fsn fm demo_opts (mkO well well KvDone well) (demo_world (Some true)) = (w', Some 0) /\
  ~ group_dir fl fsn fm demo_opts ([101] ++ s_tmp) /\ w_fs (demo_world (Some true)) ([101] ++ s_tmp) <> None /\ w_fs w' ([101] ++ s_tmp) = None.
Proof.
  eexists. split; [reflexivity|]. split; [|split; [vm_compute; discriminate|vm_compute; reflexivity]].
  intros [H|[H|[H|(x & m & H & K)]]]; vm_compute in H; try discriminate. injection H as <-. vm_compute in K. discriminate.
Qed.
(** URIs that differ in white space name the same directory: deleting one deletes the other. *)
Theorem white_space_in_a_path_refuted : exists u v f p, u <> v /\ log_create fl u = Some (LSegment, p) /\ log_create fl v = Some (LSegment, p) /\ f p <> None /\
  forall w, w_fs w = f -> w_fs (fst (log_destroy fl u well w)) p = None.
Proof.
  exists ([1] ++ s_sep ++ [101; 32; 102]), ([1] ++ s_sep ++ [101; 102]), (full [[101; 102]]), [101; 102]. split; [discriminate|]. split; [vm_compute; reflexivity|]. split; [vm_compute; reflexivity|]. split; [vm_compute; discriminate|].
  intros w E. unfold log_destroy. assert (P : parse_uri ([1] ++ s_sep ++ [101; 32; 102]) = Some ([1], [101; 102])) by (vm_compute; reflexivity). rewrite P. change (fl [1]) with (Some LSegment). unfold on_fs. cbn [fst set_fs w_fs].
  destruct (gc_dir [101; 102] well (w_fs w)) as [f' r] eqn:G. destruct (gc_form _ _ _ _ _ G) as (_ & b & _). pose proof (gc_well [101; 102] (w_fs w)) as K. rewrite G in K. cbn [fst snd] in *. apply b. auto.
Qed.
(** A path of a mixed URI with "://" in it (a remote file system) is not found: the meta data of such a
    group can be neither opened nor deleted. *)
Theorem mixed_path_with_protocol_refuted : exists m s, parse_mixed (s_merged ++ m ++ s_single ++ s) = None.
Proof. exists ([100] ++ s_sep ++ [101]), [102]. vm_compute. reflexivity. Qed.

Print Assumptions directory_whole_or_gone.
Print Assumptions success_means_gone.
Print Assumptions every_directory_whole_or_gone.
Print Assumptions others_are_untouched.
Print Assumptions retry_succeeds.
Print Assumptions a_failure_does_not_stop_the_rest.
Print Assumptions bad_uri_is_refused.
Print Assumptions uri_is_read_as_written.
Print Assumptions no_protocol_no_storage.
Print Assumptions mixed_path_is_read_as_written.
Print Assumptions merged_meta_not_opened_refuted.
Print Assumptions sibling_with_tmp_refuted.
Print Assumptions white_space_in_a_path_refuted.
Print Assumptions mixed_path_with_protocol_refuted.
