From Coq Require Import Sorted.
From Verif Require Import Base BaseLemmas SnapStore SnapStoreSpec.

Ltac sp := repeat match goal with |- _ /\ _ => split end.
Ltac ss := cbn [set_disk set_wr set_last set_refs set_rds temp snaps up last refs wr rds jobs w_tbl w_err w_pc].
Ltac ssi H := cbn [set_disk set_wr set_last set_refs set_rds temp snaps up last refs wr rds jobs w_tbl w_err w_pc] in H.

(** * Directories *)
Lemma get_in : forall i l d, get i l = Some d -> In (i, d) l.
Proof. induction l as [|[j e] l IH]; intros d H; cbn in H; [discriminate|]. destruct (Z.eqb_spec j i) as [->|]; [injection H as <-; left; auto|right; auto]. Qed.
Lemma get_has : forall i l d, NoDup (map fst l) -> In (i, d) l -> get i l = Some d.
Proof.
  induction l as [|[j e] l IH]; intros d N H; [destruct H|]. cbn in *. apply NoDup_cons_iff in N. destruct N as [N1 N2]. destruct H as [H|H].
  - injection H as -> ->. rewrite Z.eqb_refl. auto.
  - destruct (Z.eqb_spec j i) as [->|]; auto. exfalso. apply N1. apply in_map_iff. exists (i, d). auto.
Qed.
Lemma del_in : forall i l j d, In (j, d) (del i l) <-> In (j, d) l /\ j <> i.
Proof.
  induction l as [|[a e] l IH]; intros j d; cbn [del]; [cbn; tauto|]. destruct (Z.eqb_spec a i) as [->|].
  - rewrite IH. cbn [In]. split; [tauto|]. intros ([H|H] & N); auto. injection H as -> ->. congruence.
  - cbn [In]. rewrite IH. split; [intros [H|H]; [injection H as -> ->; auto|tauto]|tauto].
Qed.
Lemma del_nodup : forall i l, NoDup (map fst l) -> NoDup (map fst (del i l)).
Proof.
  induction l as [|[a e] l IH]; intros N; cbn in *; auto. apply NoDup_cons_iff in N. destruct N as [N1 N2]. destruct (a =? i); auto. cbn. constructor; auto.
  intros K. apply in_map_iff in K. destruct K as ([b f] & <- & K). apply del_in in K. apply N1. apply in_map_iff. exists (b, f). tauto.
Qed.
Lemma get_del : forall i l j, j <> i -> get j (del i l) = get j l.
Proof.
  induction l as [|[a e] l IH]; intros j N; cbn; auto. destruct (Z.eqb_spec a i) as [->|].
  - rewrite IH; auto. destruct (Z.eqb_spec i j); [congruence|auto].
  - cbn. destruct (a =? j); auto.
Qed.
Lemma part_keys : forall i k l, map fst (part i k l) = map fst l.
Proof. intros. unfold part. rewrite map_map. apply map_ext. intros [a d]. cbn. destruct (a =? i); auto. Qed.
Lemma get_part : forall i k l j, j <> i -> get j (part i k l) = get j l.
Proof.
  induction l as [|[a e] l IH]; intros j N; cbn; auto. destruct (Z.eqb_spec a i) as [->|]; cbn.
  - destruct (Z.eqb_spec i j); [congruence|]. apply IH; auto.
  - destruct (a =? j); auto.
Qed.
Lemma in_keys : forall (l : list (Z * dir)) i, In i (map fst l) <-> exists d, In (i, d) l.
Proof. intros l i. rewrite in_map_iff. split; [intros ([a d] & <- & H); eauto|intros (d & H); exists (i, d); auto]. Qed.
Lemma load_save : forall t d, load (save t d) = Some t. Proof. reflexivity. Qed.
Lemma max_key_ge : forall l i d, In (i, d) l -> i <= max_key l.
Proof. induction l as [|[a e] l IH]; intros i d H; [destruct H|]. cbn [max_key fold_right fst]. fold (max_key l). destruct H as [H|H]; [injection H as -> ->; lia|apply IH in H; lia]. Qed.
Lemma max_key_le : forall l m, 0 <= m -> (forall i d, In (i, d) l -> i <= m) -> max_key l <= m.
Proof. induction l as [|[a e] l IH]; intros m H K; cbn [max_key fold_right fst]; [lia|]. fold (max_key l). assert (a <= m) by (eapply K; left; eauto). assert (max_key l <= m) by (apply IH; auto; intros; eapply K; right; eauto). lia. Qed.

(** * Publications *)
Definition latestP (P : list (Z * dir)) : option (Z * dir) := hd_error (rev P).
Lemma latest_snoc : forall P x, latestP (P ++ [x]) = Some x.
Proof. intros. unfold latestP. rewrite rev_unit. auto. Qed.
Lemma latest_cases : forall P, (P = [] /\ latestP P = None) \/ exists P' i d, P = P' ++ [(i, d)] /\ latestP P = Some (i, d).
Proof. intros P. destruct P as [|x P] using rev_ind; [left; auto|right]. destruct x as [i d]. exists P, i, d. split; auto. apply latest_snoc. Qed.
Definition incr (P : list (Z * dir)) : Prop := StronglySorted Z.lt (map fst P).
Lemma incr_snoc : forall P i d, incr P -> (forall j e, In (j, e) P -> j < i) -> incr (P ++ [(i, d)]).
Proof.
  unfold incr. induction P as [|[a e] P IH]; intros i d H K; cbn [app map fst] in *.
  - constructor; constructor.
  - inversion H as [|? ? H1 H2]; subst. constructor; [apply IH; auto; intros; eapply K; right; eauto|].
    rewrite map_app. apply Forall_app. split; auto. constructor; [|constructor]. cbn. eapply K. left; eauto.
Qed.
Lemma incr_latest : forall P i d j e, incr P -> latestP P = Some (i, d) -> In (j, e) P -> j <= i.
Proof.
  intros P i d j e H L I. destruct (latest_cases P) as [(-> & X)|(P' & i' & d' & -> & X)]; [destruct I|]. rewrite X in L. injection L as -> ->.
  unfold incr in H. rewrite map_app in H. apply in_app_iff in I. destruct I as [I|[I|[]]]; [|injection I as -> ->; lia].
  assert (Y : forall l, StronglySorted Z.lt (l ++ [i]) -> In j l -> j < i).
  { clear. induction l as [|a l IH]; intros S I; [destruct I|]. cbn in S. inversion S as [|? ? S1 S2]; subst. destruct I as [->|I]; auto.
    rewrite Forall_forall in S2. apply S2. apply in_app_iff. right; left; auto. }
  assert (j < i); [|lia]. apply (Y (map fst P')); auto. apply in_keys. eauto.
Qed.
Lemma incr_unique : forall P i d e, incr P -> In (i, d) P -> In (i, e) P -> d = e.
Proof.
  unfold incr. induction P as [|[a f] P IH]; intros i d e H A B; [destruct A|]. cbn [map fst] in H. inversion H as [|? ? H1 H2]; subst. rewrite Forall_forall in H2.
  assert (X : forall x, In (a, x) P -> False). { intros x K. assert (a < a); [|lia]. apply H2. apply in_keys. eauto. }
  destruct A as [A|A], B as [B|B].
  - congruence.
  - injection A as -> ->. destruct (X _ B).
  - injection B as -> ->. destruct (X _ A).
  - eapply IH; eauto.
Qed.

(** * The invariant *)
Definition cnt (i : Z) (l : list (Z * Z * bool)) : Z := zlen (filter (fun x => snd (fst x) =? i) l).
Definition one (b : bool) : Z := if b then 1 else 0.
Definition spc (s : ss) : pc := match wr s with Some w => w_pc w | None => PWrite end.
Definition extra (p : pc) (i : Z) : Z :=
  match p with PLast _ new => one (new =? i) | PUnref old _ => one ((old =? i) && negb (old =? 0)) | _ => 0 end.
Definition lastok (p : pc) (l : Z) (P : list (Z * dir)) : Prop :=
  match p with
  | PRef old new | PLast old new => l = old /\ old < new /\ (exists d, latestP P = Some (new, d)) /\ (old <> 0 -> exists d, In (old, d) P)
  | _ => match latestP P with Some (i, _) => l = i | None => l = 0 end
  end.
Definition pcok (p : pc) (s : ss) (P : list (Z * dir)) : Prop :=
  match p with
  | PDel old new _ | PRen old new _ => old = last s /\ 1 <= new /\ (forall j e, In (j, e) P -> j < new) /\
      (forall d, temp s = Some d -> complete new d)
  | PUnref old new => last s = new /\ 0 <= old < new
  | PRef old new | PLast old new => 0 <= old
  | _ => True
  end.
Record SIg (g : Z -> Z) (s : ss) (P : list (Z * dir)) : Prop := mkSI {
  i_nd : NoDup (map fst (snaps s)); i_inc : incr P; i_pos : forall i d, In (i, d) P -> 1 <= i /\ complete i d;
  i_keys : forall i d, In (i, d) (snaps s) -> exists e, In (i, e) P;
  i_latest : forall i d, latestP P = Some (i, d) -> get i (snaps s) = Some d;
  i_down : up s = false -> wr s = None /\ rds s = [] /\ jobs s = [] /\ (forall i, refs s i = 0) /\ last s = 0;
  i_refs : up s = true -> forall i, refs s i = one ((last s =? i) && negb (last s =? 0)) + extra (spc s) i + cnt i (rds s) + g i;
  i_ref : forall i, 0 < refs s i -> exists d, In (i, d) P /\ get i (snaps s) = Some d;
  i_jobs : forall j, In j (jobs s) -> refs s j = 0 /\ exists i d, latestP P = Some (i, d) /\ j < i /\ 1 <= j;
  i_last : up s = true -> lastok (spc s) (last s) P;
  i_rd : forall r i b, In (r, i, b) (rds s) -> 1 <= i <= last s;
  i_rid : NoDup (map (fun x => fst (fst x)) (rds s));
  i_pc : pcok (spc s) s P }.
Definition SI := SIg (fun _ => 0).

Lemma cnt_nonneg : forall i l, 0 <= cnt i l. Proof. intros. unfold cnt, zlen. lia. Qed.
Lemma cnt_in : forall r i b l, In (r, i, b) l -> 1 <= cnt i l.
Proof.
  intros r i b l H. unfold cnt, zlen. assert (X : In (r, i, b) (filter (fun x => snd (fst x) =? i) l)). { apply filter_In. split; auto. cbn. apply Z.eqb_refl. }
  destruct (filter _ l); [destruct X|cbn [length]; lia].
Qed.
Lemma cnt_cons : forall i r j b l, cnt i ((r, j, b) :: l) = one (j =? i) + cnt i l.
Proof. intros. unfold cnt, one. cbn [filter fst snd]. destruct (j =? i); unfold zlen; cbn [length]; lia. Qed.
Lemma find_rd_in : forall rid l i b, find_rd rid l = Some (i, b) -> In (rid, i, b) l.
Proof. induction l as [|[[r j] c] l IH]; intros i b H; cbn in H; [discriminate|]. destruct (Z.eqb_spec r rid) as [->|]; [injection H as -> ->; left; auto|right; auto]. Qed.
Lemma find_rd_none : forall rid l, find_rd rid l = None -> ~ In rid (map (fun x => fst (fst x)) l).
Proof. induction l as [|[[r j] c] l IH]; intros H; cbn in *; auto. destruct (Z.eqb_spec r rid); [discriminate|]. intros [K|K]; auto. apply IH; auto. Qed.
Lemma drop_cnt : forall rid l i b k, find_rd rid l = Some (i, b) -> cnt k l = one (i =? k) + cnt k (drop_rd rid l).
Proof.
  induction l as [|[[r j] c] l IH]; intros i b k H; cbn in H; [discriminate|]. cbn [drop_rd]. rewrite cnt_cons. destruct (Z.eqb_spec r rid) as [->|].
  - injection H as -> ->. auto.
  - rewrite cnt_cons, (IH _ _ k H). lia.
Qed.
Lemma drop_incl : forall rid l, incl (drop_rd rid l) l.
Proof. induction l as [|[[r j] c] l IH]; intros x H; cbn in *; auto. destruct (r =? rid); [right; auto|]. destruct H as [H|H]; [left; auto|right; apply IH; auto]. Qed.
Lemma drop_nodup : forall rid l, NoDup (map (fun x : Z * Z * bool => fst (fst x)) l) -> NoDup (map (fun x => fst (fst x)) (drop_rd rid l)) /\ ~ In rid (map (fun x => fst (fst x)) (drop_rd rid l)).
Proof.
  induction l as [|[[r j] c] l IH]; intros N; cbn in *; [split; auto|]. apply NoDup_cons_iff in N. destruct N as [N1 N2]. destruct (Z.eqb_spec r rid) as [->|]; auto.
  destruct (IH N2) as [A B]. cbn. split; [constructor; auto|].
  - intros K. apply N1. apply in_map_iff in K. destruct K as (x & E & K). apply in_map_iff. exists x. split; auto. eapply drop_incl; eauto.
  - intros [K|K]; auto.
Qed.

Lemma one_pos : forall b, 0 <= one b <= 1. Proof. intros []; cbn; lia. Qed.
Lemma extra_pos : forall p i, 0 <= extra p i.
Proof. intros p i. unfold extra. destruct p; try lia; apply one_pos. Qed.
Lemma last_le_latest : forall g s P, SIg g s P -> up s = true -> last s = 0 \/ exists i d, latestP P = Some (i, d) /\ last s <= i.
Proof.
  intros g s P A U. assert (L := i_last _ _ _ A U). unfold lastok in L.
  assert (Df : match latestP P with Some (i, _) => last s = i | None => last s = 0 end -> last s = 0 \/ exists i d, latestP P = Some (i, d) /\ last s <= i).
  { destruct (latestP P) as [[i d]|]; auto. intros ->. right. exists i, d. split; auto. lia. }
  destruct (spc s); auto; right; destruct L as (L1 & L2 & (d & L3) & _); exists new, d; split; auto; lia.
Qed.
Lemma unref_ok : forall k s P, SIg (fun i => one (k =? i)) s P -> up s = true -> 1 <= k <= last s -> SI (unref k s) P.
Proof.
  intros k s P A U K. assert (Rk : 1 <= refs s k).
  { rewrite (i_refs _ _ _ A U). rewrite Z.eqb_refl. cbn [one]. assert (X := one_pos ((last s =? k) && negb (last s =? 0))). assert (Y := extra_pos (spc s) k). assert (Z := cnt_nonneg k (rds s)). lia. }
  unfold unref. destruct (Z.eqb_spec (refs s k) 0); [lia|].
  assert (LL := last_le_latest _ _ _ A U). assert (Rf := i_refs _ _ _ A U).
  destruct A as [A1 A2 A3 A4 A5 A6 A7 A8 A9 A10 A11 A12 A13].
  constructor; ss; auto; try congruence.
  - intros _ i. destruct (Z.eqb_spec i k) as [->|].
    + rewrite Rf, Z.eqb_refl. unfold spc. ss. cbn [one]. lia.
    + rewrite Rf. unfold spc. ss. destruct (Z.eqb_spec k i); [congruence|]. cbn [one]. lia.
  - intros i Hi. apply A8. destruct (Z.eqb_spec i k) as [E|E]; [rewrite E in *|]; lia.
  - intros j Hj. assert (Old : In j (jobs s) -> refs s j = 0 /\ (exists i d, latestP P = Some (i, d) /\ j < i /\ 1 <= j) /\ j <> k).
    { intros X. apply A9 in X. destruct X as [X1 X2]. sp; auto. intros ->. lia. }
    destruct (Z.eqb_spec (refs s k - 1) 0) as [Z0|Z0].
    + destruct Hj as [<-|Hj].
      * rewrite Z.eqb_refl. split; auto. rewrite Rf, Z.eqb_refl in Z0. cbn [one] in Z0.
        assert (Y := extra_pos (spc s) k). assert (Z := cnt_nonneg k (rds s)). destruct (Z.eqb_spec (last s) k) as [E|E]; cbn [andb] in Z0.
        { destruct (Z.eqb_spec (last s) 0); [lia|]. cbn [negb one] in Z0. lia. }
        destruct LL as [LL|(i & d & L1 & L2)]; [lia|]. exists i, d. sp; auto; lia.
      * apply Old in Hj. destruct Hj as (H1 & H2 & H3). destruct (Z.eqb_spec j k); [congruence|]. auto.
    + apply Old in Hj. destruct Hj as (H1 & H2 & H3). destruct (Z.eqb_spec j k); [congruence|]. auto.
Qed.
(** Changes of the disk below the latest snapshot that touch no referenced directory *)
Lemma disk_ok : forall s P i l, SI s P -> refs s i = 0 -> (forall j d, latestP P = Some (j, d) -> j <> i) -> NoDup (map fst l) -> (forall j, In j (map fst l) -> In j (map fst (snaps s))) ->
  (forall j, j <> i -> get j l = get j (snaps s)) -> SI (set_disk (temp s) l s) P.
Proof.
  intros s P i l [A1 A2 A3 A4 A5 A6 A7 A8 A9 A10 A11 A12 A13] R La N I G.
  constructor; ss; auto.
  - intros j d H. assert (X : In j (map fst l)) by (apply in_keys; eauto). apply I, in_keys in X. destruct X as (e & X). eauto.
  - intros j d H. rewrite G; eauto.
  - intros j H. destruct (A8 j H) as (d & X & Y). exists d. split; auto. rewrite G; auto. intros ->. lia.
Qed.
Lemma temp_ok : forall s P t, SI s P -> (match spc s with PDel _ new _ | PRen _ new _ => forall d, t = Some d -> complete new d | _ => True end) -> SI (set_disk t (snaps s) s) P.
Proof.
  intros s P t [A1 A2 A3 A4 A5 A6 A7 A8 A9 A10 A11 A12 A13] H. constructor; ss; auto. unfold spc in *. ss.
  destruct (match wr s with Some w => w_pc w | None => PWrite end); cbn [pcok] in *; ss; auto; tauto.
Qed.
Lemma nodup_del : forall i l, NoDup (map fst l) -> NoDup (map fst (del i l)) /\ (forall j, In j (map fst (del i l)) -> In j (map fst l)) /\ (forall j, j <> i -> get j (del i l) = get j l).
Proof.
  intros i l N. sp; auto using del_nodup, get_del. intros j H. apply in_keys in H. destruct H as (d & H). apply del_in in H. apply in_keys. exists d. tauto.
Qed.
Lemma nodup_part : forall i k l, NoDup (map fst l) -> NoDup (map fst (part i k l)) /\ (forall j, In j (map fst (part i k l)) -> In j (map fst l)) /\ (forall j, j <> i -> get j (part i k l) = get j l).
Proof. intros i k l N. rewrite part_keys. sp; auto using get_part. Qed.
Lemma latest_max : forall g s P i d, SIg g s P -> latestP P = Some (i, d) -> max_key (snaps s) = i.
Proof.
  intros g s P i d A L. assert (X := i_latest _ _ _ A _ _ L). apply get_in in X. assert (Y := max_key_ge _ _ _ X).
  assert (Z : max_key (snaps s) <= i); [|lia]. apply max_key_le.
  - assert (In (i, d) P) by (destruct (latest_cases P) as [(_ & W)|(P' & i' & d' & -> & W)]; rewrite W in L; [discriminate|injection L as -> ->; apply in_app_iff; right; left; auto]).
    apply (i_pos _ _ _ A) in H. lia.
  - intros j e K. apply (i_keys _ _ _ A) in K. destruct K as (e' & K). apply (incr_latest _ _ _ _ _ (i_inc _ _ _ A) L K).
Qed.
Lemma boot_ok : forall s P e s' o, SI s P -> up s = false -> boot s e = Some (s', o) -> SI s' P /\ o = [].
Proof.
  intros s P e s' o A U H. destruct (i_down _ _ _ A U) as (D1 & D2 & D3 & D4 & D5).
  assert (Low : forall i, (i <? max_key (snaps s)) = true -> forall j d, latestP P = Some (j, d) -> j <> i).
  { intros i X j d L. rewrite (latest_max _ _ _ _ _ A L) in X. apply Z.ltb_lt in X. lia. }
  unfold boot in H. destruct e as [|[i|] k|[i|]|flt| | | | | | | | | | | | | | | | | | | |]; try discriminate.
  - destruct (i <? _) eqn:E; [|discriminate]. injection H as <- <-. split; auto. destruct (nodup_part i k _ (i_nd _ _ _ A)) as (N1 & N2 & N3). eapply disk_ok; eauto.
  - injection H as <- <-. split; auto. apply temp_ok; auto. unfold spc. rewrite D1. exact I.
  - destruct (i <? _) eqn:E; [|discriminate]. injection H as <- <-. split; auto. destruct (nodup_del i _ (i_nd _ _ _ A)) as (N1 & N2 & N3). eapply disk_ok; eauto.
  - injection H as <- <-. split; auto. apply temp_ok; auto. unfold spc. rewrite D1. exact I.
  - destruct (_ || _); [|discriminate]. destruct A as [A1 A2 A3 A4 A5 A6 A7 A8 A9 A10 A11 A12 A13].
    destruct (snaps s) as [|[i d] [|x l]] eqn:E; [| |discriminate]; injection H as <- <-; (split; [|reflexivity]).
    + assert (L : latestP P = None). { destruct (latestP P) as [[i d]|] eqn:L; auto. specialize (A5 _ _ eq_refl). discriminate. }
      constructor; unfold spc; ss; auto; try discriminate; try (intros; discriminate); try lia.
      * intros _ i. rewrite andb_false_r. reflexivity.
      * intros j [].
      * intros _. cbn [lastok]. rewrite L. auto.
      * intros r i b [].
      * constructor.
    + assert (L : latestP P = Some (i, d)).
      { destruct (A4 i d) as (e & Ie); [left; auto|]. destruct (latestP P) as [[j f]|] eqn:L.
        - specialize (A5 _ _ eq_refl). cbn in A5. destruct (Z.eqb_spec i j) as [->|]; congruence.
        - destruct (latest_cases P) as [(-> & _)|(P' & i' & d' & -> & W)]; [destruct Ie|congruence]. }
      assert (IL : In (i, d) P). { destruct (latest_cases P) as [(_ & W)|(P' & i' & d' & -> & W)]; rewrite W in L; [discriminate|injection L as -> ->; apply in_app_iff; right; left; auto]. }
      assert (Pi := proj1 (A3 _ _ IL)).
      constructor; unfold spc; ss; auto; try discriminate; try (intros; discriminate).
      * intros _ j. change (cnt j []) with 0. cbn [extra]. rewrite (Z.eqb_sym i j). destruct (Z.eqb_spec i 0); [lia|]. cbn [negb]. rewrite andb_true_r. destruct (j =? i); cbn; lia.
      * intros j. destruct (Z.eqb_spec j i) as [->|]; [|lia]. intros _. exists d. split; auto.
      * intros j [].
      * intros _. cbn [lastok]. rewrite L. auto.
      * intros r j b [].
      * constructor.
      * exact I.
Qed.

(** * The writer *)
Definition calm (p : pc) : bool := match p with PWrite | PDel _ _ _ | PRen _ _ _ | PFail _ _ => true | _ => false end.
Lemma calm_extra : forall p i, calm p = true -> extra p i = 0.
Proof. destruct p; cbn; intros; auto; discriminate. Qed.
Lemma calm_last : forall p l P, calm p = true -> lastok p l P = match latestP P with Some (i, _) => l = i | None => l = 0 end.
Proof. destruct p; cbn; intros; auto; discriminate. Qed.
Lemma wr_ok : forall s P w, SI s P -> up s = true -> calm (spc s) = true -> calm (spc (set_wr w s)) = true -> pcok (spc (set_wr w s)) (set_wr w s) P -> SI (set_wr w s) P.
Proof.
  intros s P w A U C1 C2 H. assert (Rf := i_refs _ _ _ A U). assert (La := i_last _ _ _ A U).
  rewrite calm_last in La by auto.
  destruct A as [A1 A2 A3 A4 A5 A6 A7 A8 A9 A10 A11 A12 A13].
  constructor; try exact H; ss; auto; try congruence.
  - intros _ i. rewrite (calm_extra _ i C2), Rf, (calm_extra _ i C1). auto.
  - intros _. rewrite calm_last by auto. auto.
Qed.
Lemma wr_some : forall s w, wr s = Some w -> spc s = w_pc w.
Proof. intros s w H. unfold spc. rewrite H. auto. Qed.
Lemma with_pc_ok : forall s P w p, SI s P -> up s = true -> wr s = Some w -> calm (w_pc w) = true -> calm p = true -> pcok p s P -> SI (with_pc p s) P.
Proof.
  intros s P w p A U W C1 C2 H. unfold with_pc. rewrite W. apply wr_ok; auto; unfold spc; ss; rewrite ?W; auto.
Qed.
Lemma refs_zero : forall s P i, SI s P -> up s = true -> (forall d, ~ In (i, d) P) -> refs s i = 0.
Proof.
  intros s P i A U H. assert (0 <= refs s i).
  { rewrite (i_refs _ _ _ A U). assert (X := one_pos ((last s =? i) && negb (last s =? 0))). assert (Y := extra_pos (spc s) i). assert (Z := cnt_nonneg i (rds s)). lia. }
  destruct (Z.eq_dec (refs s i) 0); auto. destruct (i_ref _ _ _ A i) as (d & X & _); [lia|]. destruct (H d X).
Qed.
Lemma latest_in : forall P i d, latestP P = Some (i, d) -> In (i, d) P.
Proof. intros P i d L. destruct (latest_cases P) as [(_ & W)|(P' & i' & d' & -> & W)]; rewrite W in L; [discriminate|injection L as -> ->; apply in_app_iff; right; left; auto]. Qed.
Lemma last_pos : forall s P, SI s P -> up s = true -> 0 <= last s.
Proof.
  intros s P A U. assert (L := i_last _ _ _ A U). assert (Q := i_pc _ _ _ A). unfold lastok in L.
  assert (Df : match latestP P with Some (i, _) => last s = i | None => last s = 0 end -> 0 <= last s).
  { destruct (latestP P) as [[i d]|] eqn:E; [|lia]. apply latest_in, (i_pos _ _ _ A) in E. lia. }
  destruct (spc s); auto; cbn [pcok] in Q; lia.
Qed.
Lemma rename_ok : forall s P w old new keep d, SI s P -> up s = true -> wr s = Some w -> w_pc w = PRen old new keep -> temp s = Some d ->
  SI (with_pc (PRef old new) (set_disk None ((new, d) :: del new (snaps s)) s)) (P ++ [(new, d)]).
Proof.
  intros s P w old new keep d A U W Ep T. assert (Q := i_pc _ _ _ A). rewrite (wr_some _ _ W), Ep in Q. cbn [pcok] in Q. destruct Q as (Q1 & Q2 & Q3 & Q4).
  assert (Rf := i_refs _ _ _ A U). assert (La := i_last _ _ _ A U). assert (Lp := last_pos _ _ A U). rewrite (wr_some _ _ W), Ep in La. cbn [lastok] in La.
  assert (Sp : forall i, extra (spc s) i = 0) by (intros i; rewrite (wr_some _ _ W), Ep; auto).
  assert (Lst : last s <> 0 -> exists e, In (last s, e) P). { intros N. destruct (latestP P) as [[i e]|] eqn:E; [|congruence]. rewrite La. exists e. apply latest_in; auto. }
  destruct A as [A1 A2 A3 A4 A5 A6 A7 A8 A9 A10 A11 A12 A13].
  unfold with_pc. ss. rewrite W. constructor; unfold spc; ss; auto.
  - cbn [map fst]. constructor; [|apply del_nodup; auto]. intros K. apply in_keys in K. destruct K as (e & K). apply del_in in K. tauto.
  - apply incr_snoc; auto.
  - intros i e H. apply in_app_iff in H. destruct H as [H|[H|[]]]; auto. injection H as <- <-. auto.
  - intros i e [H|H]; [injection H as <- <-; exists d; apply in_app_iff; right; left; auto|]. apply del_in in H. destruct H as [H _]. destruct (A4 _ _ H) as (f & X). exists f. apply in_app_iff; auto.
  - intros i e H. rewrite latest_snoc in H. injection H as <- <-. cbn [get]. rewrite Z.eqb_refl. auto.
  - congruence.
  - intros _ i. rewrite Rf, Sp. cbn [extra]. auto.
  - intros i H. destruct (A8 i H) as (e & X & Y). exists e. split; [apply in_app_iff; auto|]. assert (i < new) by eauto. cbn [get]. destruct (Z.eqb_spec new i); [lia|]. rewrite get_del by lia. auto.
  - intros j H. destruct (A9 j H) as (X & i & e & Y & Y1 & Y2). split; auto. exists new, d. rewrite latest_snoc. sp; auto. assert (i < new) by (eapply Q3; apply latest_in; eauto). lia.
  - intros _. cbn [lastok]. rewrite latest_snoc. sp; eauto.
    + destruct (Z.eq_dec (last s) 0) as [Z0|Z0]; [lia|]. destruct (Lst Z0) as (e & X). apply Q3 in X. lia.
    + intros N. destruct Lst as (e & X); [congruence|]. exists e. apply in_app_iff. left. congruence.
  - cbn [pcok]. lia.
Qed.
Lemma ref_step_ok : forall s P w old new, SI s P -> up s = true -> wr s = Some w -> w_pc w = PRef old new -> SI (with_pc (PLast old new) (ref new s)) P.
Proof.
  intros s P w old new A U W Ep. assert (Q := i_pc _ _ _ A). assert (Rf := i_refs _ _ _ A U). assert (La := i_last _ _ _ A U).
  rewrite (wr_some _ _ W), Ep in *. cbn [pcok lastok] in *. destruct La as (L1 & L2 & (d & L3) & L4).
  destruct A as [A1 A2 A3 A4 A5 A6 A7 A8 A9 A10 A11 A12 A13].
  unfold with_pc, ref. ss. rewrite W. constructor; unfold spc; ss; auto.
  - congruence.
  - intros _ i. cbn [extra] in *. rewrite (Z.eqb_sym new i). destruct (Z.eqb_spec i new) as [E|E]; [rewrite E|]; rewrite Rf; cbn [one]; lia.
  - intros i H. destruct (Z.eqb_spec i new) as [E|E]; auto. rewrite E. exists d. split; auto. apply latest_in; auto.
  - intros j H. destruct (A9 j H) as (X & i & e & Y & Y1 & Y2). rewrite L3 in Y. injection Y as <- <-. destruct (Z.eqb_spec j new); [lia|]. eauto 8.
  - intros _. cbn [lastok]. eauto.
Qed.
Lemma last_step_ok : forall s P w old new, SI s P -> up s = true -> wr s = Some w -> w_pc w = PLast old new -> SI (with_pc (PUnref old new) (set_last new s)) P /\ old = last s.
Proof.
  intros s P w old new A U W Ep. assert (Q := i_pc _ _ _ A). assert (Rf := i_refs _ _ _ A U). assert (La := i_last _ _ _ A U).
  rewrite (wr_some _ _ W), Ep in *. cbn [pcok lastok] in *. destruct La as (L1 & L2 & (d & L3) & L4). split; auto.
  destruct A as [A1 A2 A3 A4 A5 A6 A7 A8 A9 A10 A11 A12 A13].
  unfold with_pc. ss. rewrite W. constructor; unfold spc; ss; auto.
  - congruence.
  - intros _ i. rewrite Rf. cbn [extra]. rewrite L1. destruct (Z.eqb_spec new 0); [lia|]. cbn [negb]. rewrite andb_true_r. lia.
  - intros _. cbn [lastok]. rewrite L3. auto.
  - intros r i b H. apply A11 in H. lia.
  - cbn [pcok]. ss. lia.
Qed.
Lemma cnt_zero : forall i l, (forall r j b, In (r, j, b) l -> j <> i) -> cnt i l = 0.
Proof.
  intros i l. induction l as [|[[r j] b] l IH]; intros H; auto. rewrite cnt_cons, IH by (intros; eapply H; right; eauto).
  destruct (Z.eqb_spec j i) as [E|E]; cbn; auto. exfalso. eapply H; [left; reflexivity|exact E].
Qed.
Lemma unref_step_ok : forall s P w old new, SI s P -> up s = true -> wr s = Some w -> w_pc w = PUnref old new -> SI (set_wr None (unref old s)) P.
Proof.
  intros s P w old new A U W Ep. assert (Q := i_pc _ _ _ A). assert (Rf := i_refs _ _ _ A U). assert (La := i_last _ _ _ A U).
  rewrite (wr_some _ _ W), Ep in *. cbn [pcok lastok] in *. destruct Q as (Q1 & Q2).
  assert (Eq : set_wr None (unref old s) = unref old (set_wr None s)). { unfold unref. ss. destruct (refs s old =? 0); auto. }
  rewrite Eq. clear Eq.
  destruct (Z.eq_dec old 0) as [O|O].
  - assert (Z0 : refs s 0 = 0). { rewrite Rf. cbn [extra]. rewrite cnt_zero; [|intros r j b H; apply (i_rd _ _ _ A) in H; lia]. rewrite O. destruct (last s =? 0); cbn; auto. }
    unfold unref. ss. rewrite O, Z0. change (0 =? 0) with true. cbv iota.
    destruct A as [A1 A2 A3 A4 A5 A6 A7 A8 A9 A10 A11 A12 A13]. constructor; unfold spc; ss; auto; try congruence.
    + intros _ i. rewrite Rf, O. cbn [extra]. rewrite andb_false_r. cbn [one]. auto.
    + exact I.
  - apply unref_ok; ss; auto; [|lia].
    destruct A as [A1 A2 A3 A4 A5 A6 A7 A8 A9 A10 A11 A12 A13]. constructor; unfold spc; ss; auto; try congruence.
    + intros _ i. rewrite Rf. cbn [extra]. destruct (Z.eqb_spec old 0); [lia|]. cbn [negb]. rewrite andb_true_r. lia.
    + exact I.
Qed.

(** * Readers *)
Lemma open1_ok : forall rid s P s' o, SI s P -> up s = true -> open1 rid s = Some (s', o) -> SI s' P /\ pubs o = [].
Proof.
  intros rid s P s' o A U H. unfold open1 in H. destruct (find_rd rid (rds s)) eqn:F; [discriminate|]. destruct (Z.eqb_spec (last s) 0) as [E|E]; injection H as <- <-; [auto|]. split; auto.
  assert (Rf := i_refs _ _ _ A U). assert (Lp := last_pos _ _ A U). assert (LL := last_le_latest _ _ _ A U).
  assert (R1 : 1 <= refs s (last s)). { rewrite Rf, Z.eqb_refl. destruct (Z.eqb_spec (last s) 0); [lia|]. cbn [negb andb one]. assert (Y := extra_pos (spc s) (last s)). assert (Z := cnt_nonneg (last s) (rds s)). lia. }
  destruct A as [A1 A2 A3 A4 A5 A6 A7 A8 A9 A10 A11 A12 A13].
  unfold ref. constructor; unfold spc; ss; auto; try congruence.
  - intros _ i. rewrite cnt_cons, (Z.eqb_sym (last s) i). destruct (Z.eqb_spec i (last s)) as [Ei|Ei].
    + rewrite Rf, Ei, Z.eqb_refl. unfold spc. cbn [one]. lia.
    + rewrite Rf. unfold spc. rewrite (Z.eqb_sym (last s) i). destruct (Z.eqb_spec i (last s)); [lia|]. cbn [one andb]. lia.
  - intros i H. apply A8. destruct (Z.eqb_spec i (last s)) as [Ei|Ei]; [rewrite Ei|]; lia.
  - intros j H. destruct (A9 j H) as (X & Y). destruct (Z.eqb_spec j (last s)) as [Ej|Ej]; auto. rewrite Ej in X. lia.
  - intros r i b [H|H]; [injection H as <- <- <-; lia|eauto].
  - cbn [map fst]. constructor; auto. apply find_rd_none; auto.
Qed.
Lemma drop_reader_ok : forall rid s P i b, SI s P -> up s = true -> find_rd rid (rds s) = Some (i, b) -> SI (unref i (set_rds (drop_rd rid (rds s)) s)) P.
Proof.
  intros rid s P i b A U F. assert (Rf := i_refs _ _ _ A U). assert (B := i_rd _ _ _ A _ _ _ (find_rd_in _ _ _ _ F)).
  apply unref_ok; ss; auto. destruct A as [A1 A2 A3 A4 A5 A6 A7 A8 A9 A10 A11 A12 A13]. constructor; unfold spc; ss; auto; try congruence.
  - intros _ k. rewrite Rf, (drop_cnt _ _ _ _ k F). unfold spc. lia.
  - intros r k c H. apply drop_incl in H. eauto.
  - apply drop_nodup; auto.
Qed.
Lemma open2_ok : forall rid ok s P s' o, SI s P -> up s = true -> open2 rid ok s = Some (s', o) ->
  SI s' P /\ pubs o = [] /\ (forall r i d, In (OOpened r i d) o -> In (i, d) P).
Proof.
  intros rid ok s P s' o A U H. unfold open2 in H. destruct (find_rd rid (rds s)) as [[i [|]]|] eqn:F; try discriminate.
  assert (Bad : SI (unref i (set_rds (drop_rd rid (rds s)) s)) P) by (eapply drop_reader_ok; eauto).
  assert (Bo : forall r i d, In (OOpened r i d) [OOpenFail rid] -> In (i, d) P) by (intros ? ? ? [X|[]]; discriminate).
  destruct (if ok then get i (snaps s) else None) as [d|] eqn:G; [|injection H as <- <-; auto]. destruct ok; [|discriminate].
  destruct (load d); injection H as <- <-; auto.
  assert (Rf := i_refs _ _ _ A U). assert (B := i_rd _ _ _ A _ _ _ (find_rd_in _ _ _ _ F)).
  assert (IP : In (i, d) P). { destruct (i_ref _ _ _ A i) as (e & X & Y). - rewrite Rf. assert (X := one_pos ((last s =? i) && negb (last s =? 0))). assert (Y := extra_pos (spc s) i). assert (Z := cnt_in _ _ _ _ (find_rd_in _ _ _ _ F)). lia. - congruence. }
  sp; auto; [|intros r j e [X|[]]; injection X as <- <- <-; auto].
  assert (DN := drop_nodup rid (rds s) (i_rid _ _ _ A)).
  destruct A as [A1 A2 A3 A4 A5 A6 A7 A8 A9 A10 A11 A12 A13]. constructor; unfold spc; ss; auto; try congruence.
  - intros _ k. rewrite cnt_cons, Rf, (drop_cnt _ _ _ _ k F). unfold spc. lia.
  - intros r k c [X|X]; [injection X as <- <- <-; auto|]. apply drop_incl in X. eauto.
  - cbn [map fst]. constructor; tauto.
Qed.

(** * Every step *)
Lemma set_jobs_ok : forall s P l, SI s P -> incl l (jobs s) -> SI (set_refs (refs s) l s) P.
Proof.
  intros s P l [A1 A2 A3 A4 A5 A6 A7 A8 A9 A10 A11 A12 A13] H. constructor; unfold spc; ss; auto.
  intros U. destruct (A6 U) as (D1 & D2 & D3 & D4 & D5). sp; auto. rewrite D3 in H. destruct l; auto. destruct (H z); left; auto.
Qed.
Lemma pubs_app : forall a b, pubs (a ++ b) = pubs a ++ pubs b. Proof. intros. unfold pubs. apply flat_map_app. Qed.
Lemma pubs_in : forall o i d, In (i, d) (pubs o) <-> In (OPub i d) o.
Proof.
  intros o i d. unfold pubs. rewrite in_flat_map. split.
  - intros (x & H & K). destruct x; cbn in K; try (destruct K; fail). destruct K as [K|[]]. injection K as -> ->. auto.
  - intros H. exists (OPub i d). split; auto. left; auto.
Qed.
Lemma with_pc_sd : forall p t l s, with_pc p (set_disk t l s) = set_disk t l (with_pc p s).
Proof. intros. unfold with_pc. ss. destruct (wr s); auto. Qed.

Lemma close1_ok : forall keep rc w s o s' o', SI s (pubs o) -> up s = true -> wr s = Some w -> w_pc w = PWrite -> rising (o ++ o') -> close1 keep rc w s = (s', o') ->
  SI s' (pubs o) /\ pubs o' = [] /\ (forall r i d, ~ In (OOpened r i d) o').
Proof.
  intros keep rc w s o s' o' A U W Ep R H. unfold close1 in H.
  destruct (negb (w_err w =? 0)). { injection H as <- <-. sp; auto. eapply with_pc_ok; eauto; [rewrite Ep; auto|exact I]. }
  unfold sync in H. destruct (rc =? 0); cbn [negb] in H.
  - assert (B : SI (set_disk (option_map (save (w_tbl w)) (temp s)) (snaps s) s) (pubs o)). { apply temp_ok; auto. rewrite (wr_some _ _ W), Ep. exact I. }
    ssi H. destruct (Z.eqb_spec (index_of (w_tbl w)) (last s)) as [E|E]; injection H as <- <-; (sp; [|auto|intros r i d [X|[]]; discriminate]).
    + eapply with_pc_ok; eauto; [rewrite Ep; auto|exact I].
    + assert (Rs := R o (index_of (w_tbl w)) [] eq_refl). destruct Rs as [R1 R2].
      eapply with_pc_ok; eauto; [rewrite Ep; auto|]. cbn [pcok]. ss. sp; auto.
      * intros j e Hj. assert (La := i_last _ _ _ A U). rewrite (wr_some _ _ W), Ep in La. cbn [lastok] in La.
        destruct (latestP (pubs o)) as [[k f]|] eqn:L; [|destruct (latest_cases (pubs o)) as [(X & _)|(P' & i' & d' & _ & X)]; [rewrite X in Hj; destruct Hj|congruence]].
        assert (j <= k) by (eapply incr_latest; eauto; apply (i_inc _ _ _ A)). apply latest_in, pubs_in, R2 in L. lia.
      * intros d Hd. destruct (temp s); [|discriminate]. cbn in Hd. injection Hd as <-. exists (w_tbl w). split; auto.
  - injection H as <- <-. sp; auto. unfold with_pc. ss. apply wr_ok; [apply wr_ok|..]; auto; unfold spc; ss; rewrite ?W, ?Ep; auto; exact I.
Qed.
Ltac nopub := intros ? ? ? [X|[]]; discriminate.
Lemma wstep_ok : forall s w e o s' o', SI s (pubs o) -> up s = true -> wr s = Some w -> rising (o ++ o') -> wstep s w e = Some (s', o') ->
  SI s' (pubs o ++ pubs o') /\ (forall r i d, ~ In (OOpened r i d) o') /\ rds s' = rds s /\ ~ In OCheckFailed o'.
Proof.
  intros s w e o s' o' A U W R H.
  assert (Wt : forall x, spc (set_wr (Some x) s) = w_pc x) by auto.
  assert (K : forall x, w_pc w = PWrite -> w_pc x = PWrite -> SI (set_wr (Some x) s) (pubs o ++ []) /\ (forall r i d, ~ In (OOpened r i d) []) /\ rds (set_wr (Some x) s) = rds s /\ ~ In OCheckFailed []).
  { intros x E1 E2. rewrite app_nil_r. sp; auto. apply wr_ok; auto; rewrite ?Wt, ?E2, ?(wr_some _ _ W), ?E1; auto. exact I. }
  assert (wrn : forall p x, rds (with_pc p x) = rds x) by (intros; unfold with_pc; destruct (wr x); auto).
  unfold wstep in H. destruct (w_pc w) eqn:Ep.
  - destruct e; try discriminate.
    + injection H as <- <-. cbn [pubs flat_map]. rewrite app_nil_r. sp; auto. apply temp_ok; auto. rewrite (wr_some _ _ W), Ep. exact I.
    + injection H as <- <-. apply K; auto.
    + injection H as <- <-. apply K; auto.
    + injection H as <- <-. apply K; auto.
    + injection H as <- <-. apply K; auto.
    + injection H as <- <-. unfold sync. destruct (rc =? 0).
      * cbn [pubs flat_map]. rewrite app_nil_r. sp; auto. apply temp_ok; auto. rewrite (wr_some _ _ W), Ep. exact I.
      * apply K; auto.
    + assert (H' : close1 keep rc w s = (s', o')) by congruence. clear H. destruct (close1_ok _ _ _ _ _ _ _ A U W Ep R H') as (X & Y & Z). rewrite Y, app_nil_r. sp; auto.
      * unfold close1, sync in H'. destruct (negb (w_err w =? 0)); [injection H' as <- <-; apply wrn|]. destruct (rc =? 0); cbn [negb] in H'; [destruct (_ =? last _)|]; injection H' as <- <-; rewrite wrn; auto.
      * unfold close1 in H'. destruct (negb (w_err w =? 0)); [injection H' as <- <-; auto|]. destruct (negb (rc =? 0)); [injection H' as <- <-; auto|]. destruct (_ =? last _); injection H' as <- <-; intros [B|[]]; discriminate.
  - assert (Q := i_pc _ _ _ A). rewrite (wr_some _ _ W), Ep in Q. cbn [pcok] in Q. destruct Q as (Q1 & Q2 & Q3 & Q4).
    assert (R0 : refs s new = 0). { eapply refs_zero; eauto. intros d X. apply Q3 in X. lia. }
    assert (Lw : forall j d, latestP (pubs o) = Some (j, d) -> j <> new). { intros j d X. apply latest_in, Q3 in X. lia. }
    destruct e; try discriminate.
    + injection H as <- <-. cbn [pubs flat_map]. rewrite app_nil_r. sp; auto. destruct (nodup_part new k _ (i_nd _ _ _ A)) as (N1 & N2 & N3). eapply disk_ok; eauto.
    + destruct ok; injection H as <- <-; cbn [pubs flat_map]; rewrite app_nil_r; (sp; [|auto|rewrite wrn; auto|auto]).
      * destruct (nodup_del new _ (i_nd _ _ _ A)) as (N1 & N2 & N3). eapply with_pc_ok; [eapply disk_ok; eauto|ss; auto|ss; eauto|rewrite Ep; auto|auto|]. cbn [pcok]. ss. auto.
      * eapply with_pc_ok; eauto; [rewrite Ep; auto|exact I].
  - destruct e; try discriminate. destruct (if ok then temp s else None) as [d|] eqn:T.
    + injection H as <- <-. destruct ok; [|discriminate]. sp; [|intros r i e [X|[]]; discriminate|rewrite wrn; auto|intros [X|[]]; discriminate]. cbn [pubs flat_map app]. eapply rename_ok; eauto.
    + injection H as <- <-. cbn [pubs flat_map]. rewrite app_nil_r. sp; [|auto|rewrite wrn; auto|auto]. eapply with_pc_ok; eauto; [rewrite Ep; auto|exact I].
  - destruct e; try discriminate. injection H as <- <-. cbn [pubs flat_map]. rewrite app_nil_r. sp; [|auto|rewrite wrn; auto|auto]. eapply ref_step_ok; eauto.
  - destruct e; try discriminate. destruct (last_step_ok _ _ _ _ _ A U W Ep) as [X Y]. rewrite Y in H at 2. rewrite Z.eqb_refl in H. injection H as <- <-.
    cbn [pubs flat_map]. rewrite app_nil_r. sp; [auto|auto|rewrite wrn; auto|auto].
  - destruct e; try discriminate. injection H as <- <-. cbn [pubs flat_map app]. rewrite app_nil_r. sp; [|nopub| |intros [X|[]]; discriminate]. { eapply unref_step_ok; eauto. }
    ss. unfold unref. destruct (_ =? 0); auto.
  - destruct e; try discriminate.
    + destruct keep; [discriminate|]. injection H as <- <-. cbn [pubs flat_map]. rewrite app_nil_r. sp; auto. apply temp_ok; auto. rewrite (wr_some _ _ W), Ep. exact I.
    + injection H as <- <-. cbn [pubs flat_map app]. rewrite app_nil_r. sp; [|nopub| |intros [X|[]]; discriminate].
      * destruct (keep || negb ok).
        -- apply wr_ok; auto; rewrite ?(wr_some _ _ W), ?Ep; auto. exact I.
        -- apply wr_ok; auto; [|rewrite (wr_some _ w), ?Ep; auto|exact I]. apply temp_ok; auto. rewrite (wr_some _ _ W), Ep. exact I.
      * destruct (keep || negb ok); auto.
Qed.

Record SR (s : ss) (o : list sout) : Prop := mkSR {
  r_si : SI s (pubs o);
  r_pub : forall r i d, In (OOpened r i d) o -> In (OPub i d) o;
  r_rd : forall r i, In (r, i, true) (rds s) -> exists d, In (OOpened r i d) o;
  r_chk : ~ In OCheckFailed o }.
Lemma s0_ok : SR s0 [].
Proof.
  constructor; cbn; auto; try (intros; contradiction). constructor; cbn; auto; try (intros; contradiction); try discriminate; try constructor; try lia; try (intros; discriminate); try (intros; lia).
Qed.
Lemma SR_app : forall s o s' o', SR s o -> SI s' (pubs o ++ pubs o') -> (forall r i d, In (OOpened r i d) o' -> In (i, d) (pubs o)) ->
  (forall r i, In (r, i, true) (rds s') -> In (r, i, true) (rds s) \/ exists d, In (OOpened r i d) o') -> ~ In OCheckFailed o' -> SR s' (o ++ o').
Proof.
  intros s o s' o' [A1 A2 A3 A4] B1 B2 B3 B4. constructor.
  - rewrite pubs_app. auto.
  - intros r i d H. apply in_app_iff in H. apply in_app_iff. destruct H as [H|H]; [left; eauto|]. left. apply pubs_in. eauto.
  - intros r i H. apply B3 in H. destruct H as [H|(d & H)].
    + apply A3 in H. destruct H as (d & H). exists d. apply in_app_iff; auto.
    + exists d. apply in_app_iff; auto.
  - intros H. apply in_app_iff in H. tauto.
Qed.
Lemma sstep_ok : forall s o e s' o', SR s o -> rising (o ++ o') -> sstep s e = Some (s', o') -> SR s' (o ++ o').
Proof.
  intros s o e s' o' S R H. assert (A := r_si _ _ S).
  assert (Nil : forall x, SI x (pubs o) -> rds x = rds s \/ rds x = [] -> SR x (o ++ [])).
  { intros x X Y. eapply SR_app; eauto; try (intros; contradiction). - cbn. rewrite app_nil_r. auto. - intros r i K. destruct Y as [Y|Y]; rewrite Y in K; [auto|destruct K]. }
  assert (Cr : sstep s EvCrash = Some (s', o') -> SR s' (o ++ o')).
  { intros X. cbn in X. injection X as <- <-. eapply SR_app; eauto; cbn; try (intros; contradiction).
    - rewrite app_nil_r. destruct A as [A1 A2 A3 A4 A5 A6 A7 A8 A9 A10 A11 A12 A13]. constructor; ss; auto; try discriminate; try (intros; lia); try (intros; contradiction); try constructor.
      all: try (intros; contradiction); try exact I.
    - intros r i d [Y|[]]; discriminate.
    - intros [Y|[]]; discriminate. }
  destruct (up s) eqn:U.
  2:{ destruct e; auto; cbn [sstep] in H; rewrite U in H; cbn [negb] in H; try discriminate; destruct (boot_ok _ _ _ _ _ A U H) as [X ->]; apply Nil; auto.
      - right. unfold boot in H. destruct n; [destruct (_ <? _); [|discriminate]|]; injection H as <-; ss; apply (i_down _ _ _ A U).
      - right. unfold boot in H. destruct n; [destruct (_ <? _); [|discriminate]|]; injection H as <-; ss; apply (i_down _ _ _ A U).
      - right. unfold boot in H. destruct (_ || _); [|discriminate]. destruct (snaps s) as [|[i d] [|]]; [| |discriminate]; injection H as <-; auto. }
  assert (Wr : forall w, wr s = Some w -> wstep s w e = Some (s', o') -> SR s' (o ++ o')).
  { intros w W X. destruct (wstep_ok _ _ _ _ _ _ A U W R X) as (B1 & B2 & B3 & B4). eapply SR_app; eauto. - intros r i d Y. destruct (B2 _ _ _ Y). - intros r i Y. rewrite B3 in Y. auto. }
  destruct e; auto; cbn [sstep] in H; rewrite U in H; cbn [negb] in H; try (destruct (wr s) as [w|] eqn:W; [|discriminate]; eauto; fail).
  - destruct (wr s) eqn:W; [discriminate|]. injection H as <- <-. apply Nil; auto. unfold create. apply wr_ok; ss; auto; [|unfold spc; ss; rewrite W; auto|exact I]. apply temp_ok; auto. unfold spc. rewrite W. exact I.
  - destruct (wr s) eqn:W; [discriminate|]. injection H as <- <-. apply Nil; auto. apply temp_ok; auto. unfold spc. rewrite W. exact I.
  - destruct (open1_ok _ _ _ _ _ A U H) as [X Y]. eapply SR_app; eauto.
    + rewrite Y, app_nil_r. auto.
    + intros r i d K. unfold open1 in H. destruct (find_rd _ _); [discriminate|]. destruct (_ =? 0); injection H as <- <-; [destruct K as [K|[]]; discriminate|destruct K].
    + intros r i K. left. unfold open1 in H. destruct (find_rd _ _); [discriminate|]. destruct (_ =? 0); injection H as <- <-; auto. ssi K. destruct K as [K|K]; [discriminate|auto].
    + intros K. unfold open1 in H. destruct (find_rd _ _); [discriminate|]. destruct (_ =? 0); injection H as <- <-; [destruct K as [K|[]]; discriminate|destruct K].
  - destruct (open2_ok _ _ _ _ _ _ A U H) as (X & Y & Z). eapply SR_app; eauto.
    + rewrite Y, app_nil_r. auto.
    + intros r i K. unfold open2 in H. destruct (find_rd _ _) as [[j [|]]|]; try discriminate.
      assert (Bd : In (r, i, true) (rds (unref j (set_rds (drop_rd rid (rds s)) s))) -> In (r, i, true) (rds s)).
      { unfold unref. destruct (_ =? 0); ss; apply drop_incl. }
      destruct (if ok then _ else _) as [d|]; [|injection H as <- <-; auto]. destruct (load d); injection H as <- <-; auto.
      ssi K. destruct K as [K|K]; [injection K as <- <-; right; exists d; left; auto|left; eapply drop_incl; eauto].
    + intros K. unfold open2 in H. destruct (find_rd _ _) as [[j [|]]|]; try discriminate.
      destruct (if ok then _ else _) as [d|]; [destruct (load d)|]; injection H as <- <-; destruct K as [K|[]]; discriminate.
  - unfold close_reader in H. destruct (find_rd rid (rds s)) as [[i [|]]|] eqn:F; try discriminate. injection H as <- <-. eapply SR_app; eauto; try (intros; contradiction).
    + cbn. rewrite app_nil_r. eapply drop_reader_ok; eauto.
    + intros r j K. left. unfold unref in K. destruct (_ =? 0) in K; ssi K; eapply drop_incl; eauto.
  - destruct (existsb _ _) eqn:E; [|discriminate]. injection H as <- <-. apply Nil; auto. apply existsb_exists in E. destruct E as (j & Ij & Ej). apply Z.eqb_eq in Ej. subst j.
    destruct (i_jobs _ _ _ A _ Ij) as (J1 & k' & d & J2 & J3 & J4). destruct (nodup_part i k _ (i_nd _ _ _ A)) as (N1 & N2 & N3). eapply disk_ok; eauto. intros j e L. rewrite L in J2. injection J2 as <- <-. lia.
  - destruct (existsb _ _) eqn:E; [|discriminate]. injection H as <- <-. apply Nil; [|destruct ok; auto]. apply existsb_exists in E. destruct E as (j & Ij & Ej). apply Z.eqb_eq in Ej. subst j.
    destruct (i_jobs _ _ _ A _ Ij) as (J1 & k' & d & J2 & J3 & J4). destruct (nodup_del i _ (i_nd _ _ _ A)) as (N1 & N2 & N3).
    destruct ok.
    + apply (set_jobs_ok (set_disk (temp s) (del i (snaps s)) s)); [|ss; intros x Hx; apply filter_In in Hx; tauto]. eapply disk_ok; eauto. intros j e L. rewrite L in J2. injection J2 as <- <-. lia.
    + apply set_jobs_ok; auto. intros x Hx; apply filter_In in Hx; tauto.
Qed.
Lemma rising_pre : forall a b, rising (a ++ b) -> rising a.
Proof. intros a b H o1 i o2 E. apply (H o1 i (o2 ++ b)). rewrite E, <- app_assoc. auto. Qed.
Lemma srun_ok : forall es s o s' o', SR s o -> srun s es = Some (s', o') -> rising (o ++ o') -> SR s' (o ++ o').
Proof.
  induction es as [|e es IH]; intros s o s' o' S H R; cbn in H.
  - injection H as <- <-. rewrite app_nil_r. auto.
  - destruct (sstep s e) as [[s1 o1]|] eqn:E; [|discriminate]. destruct (srun s1 es) as [[s2 o2]|] eqn:E2; [|discriminate]. injection H as <- <-.
    rewrite app_assoc in *. eapply IH; eauto. eapply sstep_ok; eauto. eapply rising_pre; eauto.
Qed.

(** * Opening *)
Lemma find_drop : forall r rid l, r <> rid -> find_rd r (drop_rd rid l) = find_rd r l.
Proof.
  induction l as [|[[a i] b] l IH]; intros N; cbn; auto. destruct (Z.eqb_spec a rid) as [->|].
  - destruct (Z.eqb_spec rid r); [congruence|auto].
  - cbn. destruct (a =? r); auto.
Qed.
Lemma unref_rds : forall i s, rds (unref i s) = rds s. Proof. intros. unfold unref. destruct (_ =? 0); auto. Qed.
Lemma with_pc_rds : forall p s, rds (with_pc p s) = rds s. Proof. intros. unfold with_pc. destruct (wr s); auto. Qed.
Lemma wstep_rds : forall s w e s' o', wstep s w e = Some (s', o') -> rds s' = rds s /\ up s' = up s.
Proof.
  assert (wu : forall p s, up (with_pc p s) = up s) by (intros; unfold with_pc; destruct (wr s); auto).
  assert (uu : forall i s, up (unref i s) = up s) by (intros; unfold unref; destruct (_ =? 0); auto).
  intros s w e s' o' H. unfold wstep in H. destruct (w_pc w), e; try discriminate; try (injection H as <- <-; rewrite ?with_pc_rds, ?unref_rds, ?wu; ss; rewrite ?unref_rds, ?uu; auto; fail).
  - injection H as <- <-. unfold sync. destruct (_ =? 0); auto.
  - assert (H' : close1 keep rc w s = (s', o')) by congruence. unfold close1, sync in H'. destruct (negb (w_err w =? 0)); [injection H' as <- <-; rewrite with_pc_rds, wu; auto|]. destruct (rc =? 0); cbn [negb] in H'; [destruct (_ =? last _)|]; injection H' as <- <-; rewrite with_pc_rds, wu; auto.
  - destruct ok; injection H as <- <-; rewrite with_pc_rds, wu; auto.
  - destruct (if ok then _ else _); injection H as <- <-; rewrite with_pc_rds, wu; auto.
  - destruct keep; [discriminate|]. injection H as <- <-. auto.
  - injection H as <- <-. destruct (_ || _); auto.
Qed.
Lemma pending_stays : forall s rid i e s' o', up s = true -> find_rd rid (rds s) = Some (i, false) -> e <> EvCrash -> (forall ok, e <> EvOpenDone rid ok) ->
  sstep s e = Some (s', o') -> find_rd rid (rds s') = Some (i, false) /\ up s' = true.
Proof.
  intros s rid i e s' o' U F N1 N2 H.
  assert (ur : forall i s, up (unref i s) = up s) by (intros; unfold unref; destruct (_ =? 0); auto).
  assert (W : match wr s with Some w => wstep s w e | None => None end = Some (s', o') -> find_rd rid (rds s') = Some (i, false) /\ up s' = true).
  { destruct (wr s); [|discriminate]. intros X. apply wstep_rds in X. destruct X as [-> ->]. auto. }
  destruct e; try congruence; cbn [sstep] in H; rewrite U in H; cbn [negb] in H; auto.
  - destruct (wr s); [discriminate|]. injection H as <- <-. auto.
  - destruct (wr s); [discriminate|]. injection H as <- <-. auto.
  - unfold open1 in H. destruct (find_rd rid0 (rds s)) eqn:G; [discriminate|]. destruct (_ =? 0); injection H as <- <-; auto. unfold ref. ss. cbn [find_rd]. destruct (Z.eqb_spec rid0 rid); [congruence|auto].
  - assert (rid0 <> rid) by (intros ->; eapply N2; reflexivity). unfold open2 in H. destruct (find_rd rid0 (rds s)) as [[j [|]]|]; try discriminate.
    destruct (if ok then _ else _) as [d|]; [destruct (load d)|]; injection H as <- <-; rewrite ?ur, ?unref_rds; ss; cbn [find_rd]; [destruct (Z.eqb_spec rid0 rid); [congruence|]|..]; rewrite ?find_drop by auto; auto.
  - unfold close_reader in H. destruct (find_rd rid0 (rds s)) as [[j [|]]|] eqn:G; try discriminate. injection H as <- <-. rewrite ur, unref_rds. ss. rewrite find_drop; auto. intros ->. congruence.
  - destruct (existsb _ _); [|discriminate]. injection H as <- <-. auto.
  - destruct (existsb _ _); [|discriminate]. injection H as <- <-. destruct ok; auto.
Qed.
Lemma pending_run : forall es s rid i s' o', up s = true -> find_rd rid (rds s) = Some (i, false) -> ~ In EvCrash es -> (forall ok, ~ In (EvOpenDone rid ok) es) ->
  srun s es = Some (s', o') -> find_rd rid (rds s') = Some (i, false) /\ up s' = true.
Proof.
  induction es as [|e es IH]; intros s rid i s' o' U F N1 N2 H; cbn in H; [injection H as <- <-; auto|].
  destruct (sstep s e) as [[s1 o1]|] eqn:E; [|discriminate]. destruct (srun s1 es) as [[s2 o2]|] eqn:E2; [|discriminate]. injection H as <- <-.
  assert (X1 : e <> EvCrash) by (intros ->; apply N1; left; auto).
  assert (X2 : forall ok, e <> EvOpenDone rid ok) by (intros ok ->; eapply N2; left; auto).
  destruct (pending_stays _ _ _ _ _ _ U F X1 X2 E) as [F' U'].
  eapply IH; eauto. - intros X. apply N1. right; auto. - intros ok X. eapply N2. right; eauto.
Qed.
Lemma incr_run : forall s es s' o', srun s es = Some (s', o') -> forall e s'' o'', sstep s' e = Some (s'', o'') -> srun s (es ++ [e]) = Some (s'', o' ++ o'').
Proof.
  intros s es. revert s. induction es as [|x es IH]; intros s s' o' H e s'' o'' K; cbn in *.
  - injection H as <- <-. rewrite K. rewrite app_nil_r. auto.
  - destruct (sstep s x) as [[s1 o1]|]; [|discriminate]. destruct (srun s1 es) as [[s2 o2]|] eqn:E2; [|discriminate]. injection H as <- <-.
    rewrite (IH _ _ _ E2 _ _ _ K). rewrite app_assoc. auto.
Qed.
Lemma srun_app : forall a s b, srun s (a ++ b) = match srun s a with None => None | Some (s1, o1) => match srun s1 b with None => None | Some (s2, o2) => Some (s2, o1 ++ o2) end end.
Proof.
  induction a as [|e a IH]; intros s b; cbn; [destruct (srun s b) as [[? ?]|]; auto|]. destruct (sstep s e) as [[s1 o1]|]; auto. rewrite IH. destruct (srun s1 a) as [[s2 o2]|]; auto.
  destruct (srun s2 b) as [[s3 o3]|]; auto. rewrite app_assoc. auto.
Qed.
(** an open in progress finishes with the content published *)
Lemma open_done : forall s o rid i s' o', SR s o -> up s = true -> find_rd rid (rds s) = Some (i, false) -> sstep s (EvOpenDone rid true) = Some (s', o') ->
  exists d, o' = [OOpened rid i d] /\ In (OPub i d) o.
Proof.
  intros s o rid i s' o' S U F H. assert (A := r_si _ _ S). cbn [sstep] in H. rewrite U in H. cbn [negb] in H. unfold open2 in H. rewrite F in H.
  destruct (i_ref _ _ _ A i) as (d & X & Y).
  { rewrite (i_refs _ _ _ A U). assert (X := one_pos ((last s =? i) && negb (last s =? 0))). assert (Y := extra_pos (spc s) i). assert (Z := cnt_in _ _ _ _ (find_rd_in _ _ _ _ F)). lia. }
  rewrite Y in H. destruct (i_pos _ _ _ A _ _ X) as (_ & t & T & _). rewrite T in H. injection H as <- <-. exists d. split; auto. apply pubs_in; auto.
Qed.

(** * What close returns *)
Definition closing (i : Z) (s : ss) (o : list sout) : Prop :=
  match wr s with
  | None => up s = true /\ (In (ORet 0) o -> exists d, In (OPub i d) o) /\ (In (ORet (-1)) o -> forall j d, ~ In (OPub j d) o) /\ forall r, In (ORet r) o -> r = 0 \/ r = -1
  | Some w => up s = true /\ (forall r, ~ In (ORet r) o) /\
      match w_pc w with
      | PDel _ new _ | PRen _ new _ => new = i /\ forall j d, ~ In (OPub j d) o
      | PRef _ new | PLast _ new | PUnref _ new => exists d, In (OPub i d) o
      | PFail r _ => r = S_EIO /\ forall j d, ~ In (OPub j d) o
      | PWrite => False
      end
  end.
Lemma closing_step : forall i s o e s' o', closing i s o -> e <> EvCrash -> (forall b, e <> EvCreate b) -> sstep s e = Some (s', o') -> closing i s' (o ++ o').
Proof.
  intros i s o e s' o' C N1 N2 H.
  assert (U : up s = true) by (unfold closing in C; destruct (wr s); apply C).
  assert (Same : forall x (y : list sout), wr x = wr s -> up x = true -> (forall r, ~ In (ORet r) y) -> (forall j d, ~ In (OPub j d) y) -> closing i x (o ++ y)).
  { intros x y X1 X2 X3 X4. unfold closing in *. rewrite X1. destruct (wr s) as [w|].
    - destruct C as (_ & C2 & C3). sp; auto. { intros r K. apply in_app_iff in K. destruct K as [K|K]; [eapply C2|eapply X3]; eauto. }
      assert (Np : (forall j d, ~ In (OPub j d) o) -> forall j d, ~ In (OPub j d) (o ++ y)). { intros Q j d K. apply in_app_iff in K. destruct K as [K|K]; [eapply Q|eapply X4]; eauto. }
      destruct (w_pc w); auto; try (destruct C3 as [-> C3]; auto); destruct C3 as (d & C3); exists d; apply in_app_iff; auto.
    - destruct C as (_ & C2 & C3 & C4). assert (Ro : forall r, In (ORet r) (o ++ y) -> In (ORet r) o). { intros r K. apply in_app_iff in K. destruct K as [K|K]; auto. destruct (X3 _ K). } sp; auto.
      + intros K. destruct (C2 (Ro _ K)) as (d & D). exists d. apply in_app_iff; auto.
      + intros K j d Q. apply in_app_iff in Q. destruct Q as [Q|Q]; [eapply C3|eapply X4]; eauto. }
  assert (uw : forall i s, wr (unref i s) = wr s /\ up (unref i s) = up s) by (intros; unfold unref; destruct (_ =? 0); auto).
  assert (W : match wr s with Some w => wstep s w e | None => None end = Some (s', o') -> closing i s' (o ++ o')).
  { unfold closing in C. destruct (wr s) as [w|] eqn:Ew; [|discriminate]. intros X. unfold wstep in X. destruct C as (_ & C2 & C3).
    destruct (w_pc w) eqn:Ep; [destruct C3|..].
    - destruct e; try discriminate.
      + injection X as <- <-. apply Same; auto.
      + destruct ok; injection X as <- <-; rewrite app_nil_r; unfold closing, with_pc; ss; rewrite Ew; ss; auto. sp; auto. apply C3.
    - destruct e; try discriminate. destruct (if ok then _ else _) as [d|]; injection X as <- <-; unfold closing, with_pc; ss; rewrite Ew; ss.
      + sp; auto. * intros r K. apply in_app_iff in K. destruct K as [K|[K|[]]]; [eapply C2; eauto|discriminate]. * exists d. apply in_app_iff. right. left. destruct C3 as [-> _]. auto.
      + rewrite app_nil_r. sp; auto. apply C3.
    - destruct e; try discriminate. injection X as <- <-. rewrite app_nil_r. unfold closing, with_pc, ref; ss; rewrite Ew; ss. auto.
    - destruct e; try discriminate. injection X as <- <-. unfold closing, with_pc, ref; ss; rewrite Ew; ss. sp; auto.
      + intros r K. apply in_app_iff in K. destruct K as [K|K]; [eapply C2; eauto|]. destruct (_ =? _); [destruct K|destruct K as [K|[]]; discriminate].
      + destruct C3 as (d & C3). exists d. apply in_app_iff; auto.
    - destruct e; try discriminate. injection X as <- <-. unfold closing; ss. sp.
      + rewrite (proj2 (uw _ _)). auto.
      + intros _. destruct C3 as (d & C3). exists d. apply in_app_iff; auto.
      + intros K. apply in_app_iff in K. destruct K as [K|[K|[]]]; [destruct (C2 _ K)|discriminate].
      + intros r K. apply in_app_iff in K. destruct K as [K|[K|[]]]; [destruct (C2 _ K)|injection K as <-; auto].
    - destruct e; try discriminate.
      + destruct keep; [discriminate|]. injection X as <- <-. apply Same; auto.
      + destruct C3 as [-> C3]. injection X as <- <-. unfold closing; ss. change (S_EIO =? S_EIO) with true. cbv iota. sp.
        * destruct (_ || _); auto.
        * intros K. apply in_app_iff in K. destruct K as [K|[K|[]]]; [destruct (C2 _ K)|discriminate].
        * intros _ j d K. apply in_app_iff in K. destruct K as [K|[K|[]]]; [eapply C3; eauto|discriminate].
        * intros r K. apply in_app_iff in K. destruct K as [K|[K|[]]]; [destruct (C2 _ K)|injection K as <-; auto]. }
  destruct e; try congruence; cbn [sstep] in H; rewrite U in H; cbn [negb] in H; auto.
  - destruct (wr s) eqn:Ew; [discriminate|]. injection H as <- <-. apply Same; ss; auto.
  - unfold open1 in H. destruct (find_rd rid (rds s)) eqn:G; [discriminate|]. destruct (_ =? 0); injection H as <- <-; apply Same; auto; intros; intros [K|[]]; discriminate.
  - unfold open2 in H. destruct (find_rd rid (rds s)) as [[j [|]]|]; try discriminate.
    destruct (if ok then _ else _) as [d|]; [destruct (load d)|]; injection H as <- <-; apply Same; rewrite ?(proj1 (uw _ _)), ?(proj2 (uw _ _)); auto; intros; intros [K|[]]; discriminate.
  - unfold close_reader in H. destruct (find_rd rid (rds s)) as [[j [|]]|] eqn:G; try discriminate. injection H as <- <-. apply Same; rewrite ?(proj1 (uw _ _)), ?(proj2 (uw _ _)); auto.
  - destruct (existsb _ _); [|discriminate]. injection H as <- <-. apply Same; auto.
  - destruct (existsb _ _); [|discriminate]. injection H as <- <-. apply Same; destruct ok; auto.
Qed.
Lemma closing_run : forall es i s o s' o', closing i s o -> ~ In EvCrash es -> (forall b, ~ In (EvCreate b) es) -> srun s es = Some (s', o') -> closing i s' (o ++ o').
Proof.
  induction es as [|e es IH]; intros i s o s' o' C N1 N2 H; cbn in H; [injection H as <- <-; rewrite app_nil_r; auto|].
  destruct (sstep s e) as [[s1 o1]|] eqn:E; [|discriminate]. destruct (srun s1 es) as [[s2 o2]|] eqn:E2; [|discriminate]. injection H as <- <-. rewrite app_assoc.
  eapply IH; eauto.
  - eapply closing_step; eauto. + intros ->. apply N1. left; auto. + intros b ->. eapply N2. left; auto.
  - intros X. apply N1. right; auto.
  - intros b X. eapply N2. right; eauto.
Qed.
