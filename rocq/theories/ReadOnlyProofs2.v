(** Lemmas for C63: what the flag of the majority says, who is sent what. *)
From Verif Require Import Base ReadOnly ReadOnlySpec ReadOnlyProofs.
Local Open Scope nat_scope.

Lemma filter_mono (f g : nat -> bool) c : (forall p, In p c -> f p = true -> g p = true) -> length (filter f c) <= length (filter g c).
Proof.
  induction c as [|x t IH]; cbn; intros H; [lia|]. pose proof (IH (fun p I => H p (or_intror I))) as IH'. specialize (H x (or_introl eq_refl)).
  destruct (f x), (g x); cbn; try lia; specialize (H eq_refl); discriminate H.
Qed.
Lemma filter_all (f : nat -> bool) c : (forall p, In p c -> f p = true) -> filter f c = c.
Proof. induction c as [|x t IH]; cbn; intros H; [reflexivity|]. rewrite (H x (or_introl eq_refl)), IH; [reflexivity|]. intros p I. exact (H p (or_intror I)). Qed.
Lemma filter_ext_in' (f g : nat -> bool) c : (forall p, f p = g p) -> filter f c = filter g c.
Proof. intros H. induction c as [|x t IH]; cbn; [reflexivity|]. rewrite H, IH. reflexivity. Qed.
Lemma majority_le c : c <> [] -> majority c <= length c.
Proof.
  destruct c as [|x t]; [congruence|]. intros _. unfold majority. cbn [length]. assert (S (length t) / 2 < S (length t)) by (apply Nat.div_lt; lia). lia.
Qed.

Lemma ro_of_marked s h p : inv s h -> ro_of (o_reps s) p = match marked p h with None => false | Some _ => true end.
Proof.
  intros I. unfold ro_of. pose proof (i_rep _ _ I p) as R. destruct (rep p (o_reps s)) as [r|]; [|rewrite R; reflexivity].
  destruct R as [_ R]. destruct (marked p h) as [L|]; [|rewrite R; reflexivity]. destruct (Nat.eqb_spec (p_ro r) 0); [lia|reflexivity].
Qed.
Lemma writable_can s h c : inv s h -> writable (o_self s) (o_reps s) c = filter (can_write h) c.
Proof.
  intros I. unfold writable. apply filter_ext_in'. intros p. unfold can_write. rewrite (ro_of_marked _ _ p I), (i_self _ _ I).
  destruct (p =? 0); [reflexivity|]. destruct (marked p h); reflexivity.
Qed.

(** members not known to be read-only, the node itself counted in *)
Definition free (h : hist) (p : nat) : bool := (p =? 0) || match marked p h with None => true | Some _ => false end.
Definition nodata (l : list kind) : bool := forallb (fun k => match k with KConf => true | KData => false end) l.
Definition caught (h : hist) (p : nat) : bool := (p =? 0) || match marked p h with None => true | Some L => nodata (skipn L (hlog h)) end.
Definition nfree (h : hist) (c : list nat) : nat := length (filter (free h) c).
Lemma can_free h c : length (filter (can_write h) c) <= nfree h c.
Proof. apply filter_mono. intros p _. unfold can_write, free. destruct (p =? 0); [reflexivity|]. intros ->. reflexivity. Qed.

Lemma stays_cons c e es : stays c (e :: es) -> match e with EConf _ _ => False | EReplace _ c' o' => c' = c /\ o' = [] | _ => True end /\ stays c es.
Proof. intros S. split; [exact (S e (or_introl eq_refl))|]. intros x X. exact (S x (or_intror X)). Qed.

(** the steps that change what is known *)
Lemma step_conf s e c : stays c [e] -> o_conf s = c -> o_old s = [] -> o_conf (fst (step s e)) = c /\ o_old (fst (step s e)) = [].
Proof.
  intros S C O. assert (X := S e (or_introl eq_refl)). destruct e; cbn [step]; try (split; assumption); try contradiction.
  - destruct (o_role s); try (split; assumption). destruct (o_self s || o_maj s); split; assumption.
  - destruct (rep p (o_reps s)); [destruct (Bool.eqb _ _)|]; split; assumption.
  - destruct (nth_error (o_calls s) k) as [[t [p b]]|]; [|split; assumption]. destruct (negb (t =? o_term s) && _); [split; assumption|].
    cbn [fst]. match goal with |- context [check_all ?x] => destruct (check_all_same x) as [bb E]; rewrite E end. split; assumption.
  - destruct (leads (o_role s)); [|split; assumption]. destruct (check_all_same s) as [bb E]. cbn [fst]. rewrite E. split; assumption.
  - destruct (leads (o_role s)); split; assumption.
  - destruct (o_role s); split; assumption.
  - destruct (o_role s); split; assumption.
  - destruct (leads (o_role s) && negb (p =? 0)); [destruct (rep p (o_reps s))|]; split; assumption.
  - destruct (mem p (o_conf s) || mem p (o_old s)); split; assumption.
  - destruct (rep p (o_reps s)); [destruct (prep (o_log s) (p_ro p0) (p_next p0) n)|]; split; assumption.
  - destruct (leads (o_role s)); [split; assumption|]. destruct X as [-> ->]. split; reflexivity.
Qed.

Lemma check_all_stable s c : o_conf s = c -> o_old s = [] ->
  check_all s = s_maj (negb (majority c <=? length (writable (o_self s) (o_reps s) c))) s.
Proof. intros C O. unfold check_all, check1. cbn [s_maj o_old]. rewrite O, C. reflexivity. Qed.

(** a call of change_readonly_config with effect, or the end of a configuration change: the flag is recomputed *)
Definition checks (s : rst) (e : ev) : bool :=
  match e with
  | ECall k => match nth_error (o_calls s) k with
               | Some (t, _) => negb (negb (t =? o_term s) && (match o_role s with RLead => false | _ => true end))
               | None => false end
  | EConfDone => leads (o_role s)
  | _ => false
  end.
Lemma step_checks s h e c : inv s h -> o_conf s = c -> o_old s = [] -> checks s e = true ->
  o_maj (fst (step s e)) = negb (majority c <=? length (filter (can_write ((e, snd (step s e)) :: h)) c)).
Proof.
  intros I C O K. pose proof (step_inv s h e I) as J. rewrite <- (writable_can _ _ c J). clear J. destruct e; try discriminate K; cbn [checks step] in *.
  - destruct (nth_error (o_calls s) k) as [[t [p b]]|]; [|discriminate K]. apply negb_true_iff in K. rewrite K. cbn [fst].
    match goal with |- context [check_all ?x] => rewrite (check_all_stable x c C O) end. reflexivity.
  - rewrite K. cbn [fst]. rewrite (check_all_stable s c C O). reflexivity.
Qed.

(** other steps: the flag stays or (step_down) is cleared, and nobody becomes known to be read-only *)
Lemma mark_mono p n o : (forall q, ~ In (OMark q true) o) -> forall m, m = None -> fold_left (mark1 p n) o m = None.
Proof.
  intros N m ->. induction o as [|x t IH]; [reflexivity|]. cbn [fold_left].
  assert (E : mark1 p n None x = None).
  { destruct x; try reflexivity; cbn; try (match goal with |- context [?a =? p] => destruct (a =? p); try reflexivity end). destruct b; [|reflexivity]. exfalso. exact (N p0 (or_introl eq_refl)). }
  rewrite E. apply IH. intros q Q. exact (N q (or_intror Q)).
Qed.
Lemma not_marks s e : checks s e = false -> forall q, ~ In (OMark q true) (snd (step s e)).
Proof.
  intros K q HI. destruct e; cbn [checks step] in *; try contradiction; try discriminate K.
  - destruct HI as [X|[]]. discriminate X.
  - destruct (o_role s); [| destruct (o_self s || o_maj s)|]; cbn [snd] in HI; rewrite ?in_app_iff, ?in_map_iff in HI;
      repeat (destruct HI as [HI|HI]); try destruct HI as (x & X & _); try discriminate X; try destruct HI as (y & Y & _); try discriminate Y.
  - destruct (rep p (o_reps s)); [destruct (Bool.eqb _ _)|]; contradiction.
  - destruct (nth_error (o_calls s) k) as [[t [p b]]|]; [|contradiction]. apply negb_false_iff in K. rewrite K in HI. destruct HI as [X|[]]. discriminate X.
  - destruct (leads (o_role s)); [|contradiction]. destruct HI as [X|[]]. discriminate X.
  - destruct (leads (o_role s)); contradiction.
  - destruct (leads (o_role s)); [contradiction|]. destruct HI as [X|[X|[]]]; discriminate X.
  - destruct HI as [X|[]]. discriminate X.
  - destruct (o_role s); try contradiction. destruct HI as [X|[]]. discriminate X.
  - destruct (o_role s); try contradiction. destruct HI as [X|[]]. discriminate X.
  - destruct (leads (o_role s) && negb (p =? 0)); [destruct (rep p (o_reps s))|]; try contradiction. destruct HI as [X|[]]. discriminate X.
  - destruct (mem p (o_conf s) || mem p (o_old s)); [contradiction|]. destruct HI as [X|[]]. discriminate X.
  - destruct (rep p (o_reps s)) as [r|]; [|contradiction]. destruct (prep (o_log s) (p_ro r) (p_next r) n). cbn [snd] in HI.
    apply in_map_iff in HI. destruct HI as (x & X & _). discriminate X.
  - destruct (leads (o_role s)); [contradiction|]. destruct HI as [X|[]]. discriminate X.
Qed.
Lemma free_mono s h e p : checks s e = false -> free h p = true -> free ((e, snd (step s e)) :: h) p = true.
Proof.
  intros K. unfold free. destruct (p =? 0); [reflexivity|]. cbn [orb marked]. destruct (marked p h) eqn:M; [discriminate|]. intros _.
  rewrite (mark_mono p _ _ (not_marks s e K) None eq_refl). reflexivity.
Qed.
Lemma maj_same s e : checks s e = false -> (forall t, e <> EStep t) -> o_maj (fst (step s e)) = o_maj s.
Proof.
  intros K N. destruct e; cbn [checks step] in *; try reflexivity.
  - destruct (o_role s); try reflexivity. destruct (o_self s || o_maj s); reflexivity.
  - destruct (rep p (o_reps s)); [destruct (Bool.eqb _ _)|]; reflexivity.
  - destruct (nth_error (o_calls s) k) as [[t [p b]]|]; [|reflexivity]. apply negb_false_iff in K. rewrite K. reflexivity.
  - destruct (leads (o_role s)); reflexivity.
  - destruct (leads (o_role s)); [discriminate K|reflexivity].
  - destruct (leads (o_role s)); reflexivity.
  - contradiction (N t). reflexivity.
  - destruct (o_role s); reflexivity.
  - destruct (o_role s); reflexivity.
  - destruct (leads (o_role s) && negb (p =? 0)); [destruct (rep p (o_reps s))|]; reflexivity.
  - destruct (mem p (o_conf s) || mem p (o_old s)); reflexivity.
  - destruct (rep p (o_reps s)) as [r|]; [|reflexivity]. destruct (prep (o_log s) (p_ro r) (p_next r) n). reflexivity.
  - destruct (leads (o_role s)); reflexivity.
Qed.

(** Whether data was appended in this step. *)
Definition appends_data (o : list out) : Prop := In (OAppend KData) o.
Lemma data_only_if_writable s e : appends_data (snd (step s e)) -> o_role s = RLead /\ o_self s = false /\ o_maj s = false.
Proof.
  unfold appends_data. intros HI. destruct e; cbn [step] in HI; try contradiction.
  - destruct HI as [X|[]]. discriminate X.
  - destruct (o_role s); cbn [snd] in HI; try (apply in_map_iff in HI; destruct HI as (x & X & _); discriminate X).
    destruct (o_self s), (o_maj s); cbn [orb snd] in HI; try (apply in_map_iff in HI; destruct HI as (x & X & _); discriminate X). repeat split; reflexivity.
  - destruct (rep p (o_reps s)); [destruct (Bool.eqb _ _)|]; contradiction.
  - destruct (nth_error (o_calls s) k) as [[t [p b]]|]; [|contradiction]. destruct (negb (t =? o_term s) && _); [destruct HI as [X|[]]; discriminate X|].
    cbn [snd] in HI. destruct (rep p (o_reps s)); [|contradiction]. destruct HI as [X|[]]. discriminate X.
  - destruct (leads (o_role s)); [|contradiction]. destruct HI as [X|[]]. discriminate X.
  - destruct (leads (o_role s)); contradiction.
  - destruct (leads (o_role s)); [contradiction|]. destruct HI as [X|[X|[]]]; discriminate X.
  - destruct HI as [X|[]]. discriminate X.
  - destruct (o_role s); try contradiction. destruct HI as [X|[]]. discriminate X.
  - destruct (o_role s); try contradiction. destruct HI as [X|[]]. discriminate X.
  - destruct (leads (o_role s) && negb (p =? 0)); [destruct (rep p (o_reps s))|]; try contradiction. destruct HI as [X|[]]. discriminate X.
  - destruct (mem p (o_conf s) || mem p (o_old s)); [contradiction|]. destruct HI as [X|[]]. discriminate X.
  - destruct (rep p (o_reps s)) as [r|]; [|contradiction]. destruct (prep (o_log s) (p_ro r) (p_next r) n). cbn [snd] in HI.
    apply in_map_iff in HI. destruct HI as (x & X & _). discriminate X.
  - destruct (leads (o_role s)); [contradiction|]. destruct HI as [X|[]]. discriminate X.
Qed.

(** The log of a step: as a follower it may be replaced, otherwise it grows, by configurations only unless data was appended. *)
Lemma log_grows o : forall l, (forall l', ~ In (OReplace l') o) -> ~ appends_data o -> exists l2, fold_left log1 o l = l ++ l2 /\ nodata l2 = true.
Proof.
  induction o as [|x t IH]; intros l NR ND; [exists []; split; [symmetry; apply app_nil_r|reflexivity]|].
  destruct (IH (log1 l x)) as (l2 & E & F); [intros l' I; exact (NR l' (or_intror I))|intros I; exact (ND (or_intror I))|].
  cbn [fold_left]. rewrite E. destruct x as [| k | l' | | | | | | | | | |]; cbn [log1]; try (exists l2; split; [reflexivity|exact F]).
  - destruct k; [exfalso; apply ND; left; reflexivity|]. exists (KConf :: l2). split; [rewrite <- app_assoc; reflexivity|exact F].
  - exfalso. exact (NR l' (or_introl eq_refl)).
Qed.
Lemma no_replace s e : leads (o_role s) = true \/ (forall l c o, e <> EReplace l c o) -> forall l', ~ In (OReplace l') (snd (step s e)).
Proof.
  intros K l' HI. destruct e; cbn [step] in *; try contradiction.
  - destruct HI as [X|[]]. discriminate X.
  - destruct (o_role s); [| destruct (o_self s || o_maj s)|]; cbn [snd] in HI; rewrite ?in_app_iff, ?in_map_iff in HI;
      repeat (destruct HI as [HI|HI]); try destruct HI as (x & X & _); try discriminate X; try destruct HI as (y & Y & _); try discriminate Y.
  - destruct (rep p (o_reps s)); [destruct (Bool.eqb _ _)|]; contradiction.
  - destruct (nth_error (o_calls s) k) as [[t [p b]]|]; [|contradiction]. destruct (negb (t =? o_term s) && _); [destruct HI as [X|[]]; discriminate X|].
    cbn [snd] in HI. destruct (rep p (o_reps s)); [|contradiction]. destruct HI as [X|[]]. discriminate X.
  - destruct (leads (o_role s)); [|contradiction]. destruct HI as [X|[]]. discriminate X.
  - destruct (leads (o_role s)); contradiction.
  - destruct (leads (o_role s)); [contradiction|]. destruct HI as [X|[X|[]]]; discriminate X.
  - destruct HI as [X|[]]. discriminate X.
  - destruct (o_role s); try contradiction. destruct HI as [X|[]]. discriminate X.
  - destruct (o_role s); try contradiction. destruct HI as [X|[]]. discriminate X.
  - destruct (leads (o_role s) && negb (p =? 0)); [destruct (rep p (o_reps s))|]; try contradiction. destruct HI as [X|[]]. discriminate X.
  - destruct (mem p (o_conf s) || mem p (o_old s)); [contradiction|]. destruct HI as [X|[]]. discriminate X.
  - destruct (rep p (o_reps s)) as [r|]; [|contradiction]. destruct (prep (o_log s) (p_ro r) (p_next r) n). cbn [snd] in HI.
    apply in_map_iff in HI. destruct HI as (x & X & _). discriminate X.
  - destruct K as [K|K]; [rewrite K in HI; contradiction|exact (K _ _ _ eq_refl)].
Qed.

Lemma mark_len p n o : forall m, (forall L, m = Some L -> L <= n) -> forall L, fold_left (mark1 p n) o m = Some L -> L <= n.
Proof.
  induction o as [|x t IH]; intros m H L E; [exact (H L E)|]. cbn [fold_left] in E. apply IH in E; [exact E|]. clear E. intros L2 E.
  destruct x; cbn [mark1] in E; try (apply H; exact E); try discriminate E.
  - destruct (p0 =? p); [|apply H; exact E]. destruct b; [|discriminate E]. destruct m; [apply H; exact E|]. injection E as <-. lia.
  - destruct (p0 =? p); [discriminate E|apply H; exact E].
  - destruct (p0 =? p); [discriminate E|apply H; exact E].
Qed.
(** what is known of p after a step: nothing, or that it became known now, or as before *)
Lemma mark_cases p n o : forall m, fold_left (mark1 p n) o m = None \/ fold_left (mark1 p n) o m = Some n \/ fold_left (mark1 p n) o m = m.
Proof.
  induction o as [|x t IH]; intros m; [auto|]. cbn [fold_left]. destruct (IH (mark1 p n m x)) as [A|[A|A]]; [auto|auto|]. rewrite A.
  destruct x; cbn [mark1]; auto; destruct (p0 =? p); auto. destruct b; auto. destruct m; auto.
Qed.

Lemma follow_marks s h p : inv s h -> o_role s = RFollow -> marked p h = None.
Proof. intros I R. pose proof (i_rep _ _ I p) as X. rewrite (i_fol _ _ I R) in X. exact X. Qed.

Lemma caught_mono s h e p : inv s h -> ~ appends_data (snd (step s e)) -> caught h p = true -> caught ((e, snd (step s e)) :: h) p = true.
Proof.
  intros I ND C. unfold caught in *. destruct (p =? 0); [reflexivity|]. cbn [orb] in *. cbn [marked hlog].
  set (o := snd (step s e)) in *. destruct (mark_cases p (length (hlog h)) o (marked p h)) as [A|[A|A]]; rewrite A; [reflexivity| |].
  - (* known now *) destruct (o_role s) eqn:RO.
    + exfalso. pose proof (step_inv s h e I) as J. assert (X := i_rep _ _ J p). cbn [marked] in X. fold o in X. rewrite A in X.
      destruct (rep p (o_reps (fst (step s e)))) eqn:ER; [|discriminate X].
      assert (o_reps s = []) as RE by exact (i_fol _ _ I RO). pose proof (follow_marks s h p I RO) as MN. rewrite MN in A. clear X J ER.
      (* a follower has no replicator, so nothing is marked *)
      subst o. assert (NM : forall q, ~ In (OMark q true) (snd (step s e))).
      { destruct (checks s e) eqn:K; [|exact (not_marks s e K)]. intros q Q. destruct e; try discriminate K; cbn [step checks] in *.
        - destruct (nth_error (o_calls s) k) as [[t [p1 b]]|]; [|discriminate K]. apply negb_true_iff in K. rewrite K in Q. cbn [snd] in Q. rewrite RE in Q. cbn in Q. exact Q.
        - rewrite K in Q. exact Q. }
      rewrite (mark_mono p _ _ NM None eq_refl) in A. discriminate A.
    + destruct (log_grows o (hlog h)) as (l2 & E & F); [apply no_replace; left; rewrite RO; reflexivity|exact ND|]. rewrite E, skipn_app, skipn_all, Nat.sub_diag. cbn. exact F.
    + destruct (log_grows o (hlog h)) as (l2 & E & F); [apply no_replace; left; rewrite RO; reflexivity|exact ND|]. rewrite E, skipn_app, skipn_all, Nat.sub_diag. cbn. exact F.
  - destruct (marked p h) as [L|] eqn:M; [|reflexivity].
    destruct (leads (o_role s)) eqn:LE; [|exfalso; rewrite (follow_marks s h p I) in M; [discriminate M|destruct (o_role s); [reflexivity|discriminate LE|discriminate LE]]].
    destruct (log_grows o (hlog h)) as (l2 & E & F); [apply no_replace; left; exact LE|exact ND|]. rewrite E, skipn_app. unfold nodata in *. rewrite forallb_app, C. cbn.
    apply forallb_forall. intros x X. rewrite forallb_forall in F. apply F. rewrite <- (firstn_skipn (L - length (hlog h)) l2). apply in_or_app. right. exact X.
Qed.

Record cinv (c : list nat) (s : rst) (h : hist) : Prop := mkC {
  c_inv : inv s h; c_conf : o_conf s = c; c_old : o_old s = [];
  c_maj : o_maj s = false -> majority c <= nfree h c;
  c_caught : majority c <= length (filter (caught h) c);
  c_reps : leads (o_role s) = true -> forall p, In p c -> p <> 0 -> rep p (o_reps s) <> None }.

Lemma free_caught_data s h e c : inv s h -> appends_data (snd (step s e)) -> majority c <= nfree h c -> majority c <= length (filter (caught ((e, snd (step s e)) :: h)) c).
Proof.
  intros I D M. eapply Nat.le_trans; [exact M|]. apply filter_mono. intros p _ F. assert (K : checks s e = false).
  { destruct e; cbn [checks]; try reflexivity; exfalso; unfold appends_data in D; cbn [step] in D.
    - destruct (nth_error (o_calls s) k) as [[t [p1 b]]|]; [|contradiction]. destruct (negb (t =? o_term s) && _); [destruct D as [X|[]]; discriminate X|].
      cbn [snd] in D. destruct (rep p1 (o_reps s)); [|contradiction]. destruct D as [X|[]]. discriminate X.
    - destruct (leads (o_role s)); contradiction. }
  pose proof (free_mono s h e p K F) as G. unfold free in G. unfold caught. destruct (p =? 0); [reflexivity|]. cbn [orb] in *.
  destruct (marked p ((e, snd (step s e)) :: h)); [discriminate G|reflexivity].
Qed.

Lemma appends_dec o : {appends_data o} + {~ appends_data o}.
Proof. unfold appends_data. apply in_dec. decide equality; try (apply Nat.eq_dec); try apply Z.eq_dec; try apply Bool.bool_dec; try (apply list_eq_dec); decide equality. Defined.

Lemma reps_kept s e c : o_conf s = c -> leads (o_role (fst (step s e))) = true ->
  (leads (o_role s) = true -> forall p, In p c -> p <> 0 -> rep p (o_reps s) <> None) -> forall p, In p c -> p <> 0 -> rep p (o_reps (fst (step s e))) <> None.
Proof.
  intros C LE K p HP NZ. revert LE. destruct e; cbn [step]; intros LE; try (exact (K LE p HP NZ)).
  - destruct (o_role s) eqn:RO; cbn [fst] in *; [rewrite RO in LE; discriminate LE| |exact (K eq_refl p HP NZ)]. destruct (o_self s || o_maj s); exact (K eq_refl p HP NZ).
  - destruct (rep p0 (o_reps s)) eqn:ER; [destruct (Bool.eqb _ _)|]; exact (K LE p HP NZ).
  - destruct (nth_error (o_calls s) k) as [[t [p1 b]]|]; [|exact (K LE p HP NZ)]. destruct (negb (t =? o_term s) && _); [exact (K LE p HP NZ)|].
    cbn [fst] in *. match goal with |- context [check_all ?x] => destruct (check_all_same x) as [bb E]; rewrite E in * end. cbn [s_maj s_reps o_reps] in *.
    rewrite rep_upd. specialize (K LE p HP NZ). destruct (p1 =? p); [|exact K]. destruct (rep p (o_reps s)); [discriminate|contradiction].
  - destruct (leads (o_role s)) eqn:L2; cbn [fst] in *; [exact (K eq_refl p HP NZ)|rewrite L2 in LE; discriminate LE].
  - destruct (leads (o_role s)) eqn:L2; cbn [fst] in *.
    + destruct (check_all_same s) as [bb E]. rewrite E. exact (K eq_refl p HP NZ).
    + rewrite L2 in LE. discriminate LE.
  - destruct (leads (o_role s)) eqn:L2; cbn [fst] in *; [exact (K eq_refl p HP NZ)|]. cbn [s_log s_reps s_role s_term o_reps]. rewrite rep_map.
    assert (M : mem p (filter (fun p0 => negb (p0 =? 0)) (nodup Nat.eq_dec (o_conf s ++ o_old s))) = true).
    { apply mem_In, filter_In. split; [apply nodup_In, in_or_app; left; rewrite C; exact HP|]. apply negb_true_iff, Nat.eqb_neq, NZ. }
    rewrite M. discriminate.
  - discriminate LE.
  - destruct (o_role s) eqn:RO; cbn [fst] in *; try (rewrite RO in LE; discriminate LE); exact (K eq_refl p HP NZ).
  - destruct (o_role s) eqn:RO; cbn [fst] in *; try (rewrite RO in LE; discriminate LE); exact (K eq_refl p HP NZ).
  - destruct (leads (o_role s) && negb (p0 =? 0)); [destruct (rep p0 (o_reps s)) eqn:ER|]; cbn [fst] in *; try (exact (K LE p HP NZ)).
    cbn [s_reps o_reps]. rewrite rep_add. specialize (K LE p HP NZ). destruct (rep p (o_reps s)); [discriminate|contradiction].
  - destruct (mem p0 (o_conf s)) eqn:M1; [exact (K LE p HP NZ)|]. destruct (mem p0 (o_old s)) eqn:M2; cbn [orb fst] in *; [exact (K LE p HP NZ)|].
    cbn [s_reps o_reps]. rewrite rep_del. destruct (Nat.eqb_spec p0 p) as [->|N]; [|exact (K LE p HP NZ)]. exfalso.
    rewrite <- C in HP. apply mem_In in HP. congruence.
  - destruct (rep p0 (o_reps s)) as [r|] eqn:ER; [|exact (K LE p HP NZ)]. destruct (prep (o_log s) (p_ro r) (p_next r) n). cbn [fst s_reps o_reps] in *.
    rewrite rep_upd. specialize (K LE p HP NZ). destruct (p0 =? p); [|exact K]. destruct (rep p (o_reps s)); [discriminate|contradiction].
  - cbn [fst s_reps o_reps] in *. rewrite rep_upd. specialize (K LE p HP NZ). destruct (p0 =? p); [|exact K]. destruct (rep p (o_reps s)); [discriminate|contradiction].
  - destruct (leads (o_role s)) eqn:L2; cbn [fst] in *; [exact (K eq_refl p HP NZ)|]. cbn [s_conf s_log o_role] in LE. rewrite L2 in LE. discriminate LE.
Qed.

Lemma step_cinv c s h e : cinv c s h -> c <> [] -> stays c [e] -> cinv c (fst (step s e)) ((e, snd (step s e)) :: h).
Proof.
  intros [I C O M G R] NE S. destruct (step_conf s e c S C O) as [C' O']. pose proof (step_inv s h e I) as J.
  constructor; try assumption.
  - destruct (checks s e) eqn:K.
    + rewrite (step_checks s h e c I C O K). intros X. apply negb_false_iff, Nat.leb_le in X. eapply Nat.le_trans; [exact X|apply can_free].
    + intros X. destruct (match e with EStep _ => true | _ => false end) eqn:ST.
      * destruct e; try discriminate ST. unfold nfree. rewrite filter_all; [apply majority_le, NE|]. intros p _. unfold free. destruct (p =? 0); reflexivity.
      * rewrite maj_same in X; [|exact K|intros t ->; discriminate ST]. eapply Nat.le_trans; [exact (M X)|]. apply filter_mono. intros p _. apply free_mono, K.
  - destruct (appends_dec (snd (step s e))) as [D|D].
    + apply free_caught_data; [exact I|exact D|]. apply M. exact (proj2 (proj2 (data_only_if_writable s e D))).
    + eapply Nat.le_trans; [exact G|]. apply filter_mono. intros p _. apply caught_mono; assumption.
  - intros LE. apply (reps_kept s e c); assumption.
Qed.
Lemma init_cinv c : c <> [] -> cinv c (init c []) [].
Proof.
  intros NE. constructor; try reflexivity.
  - apply init_inv.
  - intros _. unfold nfree. rewrite filter_all; [apply majority_le, NE|]. intros p _. unfold free. destruct (p =? 0); reflexivity.
  - rewrite filter_all; [apply majority_le, NE|]. intros p _. unfold caught. destruct (p =? 0); reflexivity.
  - discriminate.
Qed.
Lemma run_cinv c es : c <> [] -> stays c es -> forall s h, cinv c s h -> cinv c (fst (run s h es)) (snd (run s h es)).
Proof.
  intros NE. induction es as [|e t IH]; intros ST s h I; [exact I|]. apply stays_cons in ST. destruct ST as [S1 S2]. cbn [run].
  pose proof (step_cinv c s h e I NE) as J. destruct (step s e) as [s2 o] eqn:E. apply (IH S2). apply J. intros x [<-|[]]. exact S1.
Qed.
Lemma lives_cinv c es s h : c <> [] -> stays c es -> lives c [] es = (s, h) -> cinv c s h.
Proof. intros NE ST L. pose proof (run_cinv c es NE ST _ _ (init_cinv c NE)) as J. unfold lives in L. rewrite L in J. exact J. Qed.

(** without enter_readonly_mode the flag is always up to date *)
Definition exact_flag (c : list nat) (s : rst) (h : hist) : Prop := o_maj s = negb (majority c <=? nfree h c) /\ hself h = false.
Lemma can_is_free h c : hself h = false -> length (filter (can_write h) c) = nfree h c.
Proof.
  intros E. unfold nfree. f_equal. apply filter_ext_in'. intros p. unfold can_write, free. rewrite E. destruct (p =? 0); [reflexivity|]. destruct (marked p h); reflexivity.
Qed.

Lemma marked_kept c s h e p L : cinv c s h -> In p c -> checks s e = false -> (forall t, e <> EStep t) -> marked p h = Some L ->
  marked p ((e, snd (step s e)) :: h) = Some L.
Proof.
  intros [I C O M G R] HP CK NS E.
  assert (LE : leads (o_role s) = true).
  { destruct (o_role s) eqn:RO; try reflexivity. rewrite (follow_marks s h p I RO) in E. discriminate E. }
  cbn [marked]. destruct e; cbn [checks step] in *; try (rewrite LE); cbn [snd fold_left mark1]; try exact E.
  - destruct (o_role s); cbn [snd]; rewrite ?mark1_done; try exact E.
    destruct (o_self s || o_maj s); cbn [snd]; rewrite ?fold_left_app, ?mark1_done, ?mark1_data; exact E.
  - destruct (rep p0 (o_reps s)); [destruct (Bool.eqb _ _)|]; exact E.
  - destruct (nth_error (o_calls s) k) as [[t [p1 b]]|]; [|exact E]. apply negb_false_iff in CK. rewrite CK. exact E.
  - contradiction (NS t). reflexivity.
  - destruct (o_role s); exact E.
  - destruct (o_role s); exact E.
  - destruct (negb (p0 =? 0)); cbn [andb]; [|exact E]. destruct (rep p0 (o_reps s)) eqn:ER; [exact E|]. cbn [snd fold_left mark1].
    destruct (Nat.eqb_spec p0 p) as [->|N]; [|exact E]. pose proof (i_rep _ _ I p) as X. rewrite ER in X. congruence.
  - destruct (mem p0 (o_conf s)) eqn:M1; [exact E|]. destruct (mem p0 (o_old s)); [exact E|]. cbn [orb snd fold_left mark1].
    destruct (Nat.eqb_spec p0 p) as [->|N]; [|exact E]. rewrite <- C in HP. apply mem_In in HP. congruence.
  - destruct (rep p0 (o_reps s)) as [r|]; [|exact E]. destruct (prep (o_log s) (p_ro r) (p_next r) n) as [ro q]. cbn [snd]. rewrite mark1_send. exact E.
Qed.
Lemma filter_same (f g : nat -> bool) c : (forall p, In p c -> f p = g p) -> filter f c = filter g c.
Proof. induction c as [|x t IH]; cbn; intros H; [reflexivity|]. rewrite (H x (or_introl eq_refl)), IH; [reflexivity|]. intros p I. exact (H p (or_intror I)). Qed.
Lemma step_exact c s h e : cinv c s h -> c <> [] -> stays c [e] -> e <> EEnter -> exact_flag c s h -> exact_flag c (fst (step s e)) ((e, snd (step s e)) :: h).
Proof.
  intros K NE ST N [F HS]. pose proof K as [I C O M G R].
  assert (HS' : hself ((e, snd (step s e)) :: h) = false) by (cbn [hself]; destruct e; congruence).
  split; [|exact HS']. destruct (checks s e) eqn:CK; [rewrite (step_checks s h e c I C O CK), can_is_free; [reflexivity|exact HS']|].
  destruct (match e with EStep _ => true | _ => false end) eqn:ES.
  { destruct e; try discriminate ES. cbn [step fst snd s_reps s_maj o_maj]. symmetry. apply negb_false_iff, Nat.leb_le. unfold nfree. rewrite filter_all.
    - apply majority_le, NE.
    - intros p _. unfold free. cbn [marked fold_left mark1]. destruct (p =? 0); reflexivity. }
  assert (NS : forall t, e <> EStep t) by (intros t ->; discriminate ES).
  rewrite (maj_same s e CK NS), F. do 2 f_equal. unfold nfree. f_equal. apply filter_same. intros p HP. unfold free. f_equal.
  destruct (marked p h) as [L|] eqn:E.
  - rewrite (marked_kept c s h e p L K HP CK NS E). reflexivity.
  - cbn [marked]. rewrite (mark_mono p _ _ (not_marks s e CK) _ E). reflexivity.
Qed.
Lemma run_exact c es : c <> [] -> stays c es -> never_enters es -> forall s h, cinv c s h -> exact_flag c s h -> exact_flag c (fst (run s h es)) (snd (run s h es)).
Proof.
  intros NE. induction es as [|e t IH]; intros ST NV s h I X; [exact X|]. apply stays_cons in ST. destruct ST as [S1 S2]. cbn [run].
  assert (SE : stays c [e]) by (intros x [<-|[]]; exact S1).
  pose proof (step_cinv c s h e I NE SE) as J. pose proof (step_exact c s h e I NE SE (fun q => NV (or_introl q)) X) as Y.
  destruct (step s e) as [s2 o]. apply (IH S2); [intros q; exact (NV (or_intror q))|exact J|exact Y].
Qed.
Lemma lives_exact c es s h : c <> [] -> stays c es -> never_enters es -> lives c [] es = (s, h) -> exact_flag c s h.
Proof.
  intros NE ST NV L. pose proof (run_exact c es NE ST NV _ _ (init_cinv c NE)) as J. unfold lives in L. rewrite L in J. apply J. split; [|reflexivity].
  cbn [init o_maj]. symmetry. apply negb_false_iff, Nat.leb_le. unfold nfree. rewrite filter_all; [apply majority_le, NE|]. intros p _. unfold free. destruct (p =? 0); reflexivity.
Qed.

(** Who is sent what. *)
Lemma sent_iff s h p n i k : inv s h -> rep p (o_reps s) <> None ->
  (sent_if_asked s p n i k <-> entry (hlog h) i = Some k /\ i <= n /\
     match marked p h with None => True | Some L => forall j, L < j <= i -> entry (hlog h) j = Some KConf end).
Proof.
  intros I NR. unfold sent_if_asked. rewrite <- (i_log _ _ I). pose proof (i_rep _ _ I p) as X. cbn [step fst]. cbn [s_reps o_reps]. rewrite rep_upd, Nat.eqb_refl.
  destruct (rep p (o_reps s)) as [r|]; [|contradiction]. cbn [option_map p_next p_ro]. destruct X as [A B].
  replace (max 1 (min 1 (p_next r))) with 1 by lia. cbn [s_reps o_log]. destruct (prep (o_log s) (p_ro r) 1 n) as [ro q] eqn:PR. cbn [snd].
  assert (MI : In (OSend p i k) (map (fun x : nat * kind => OSend p (fst x) (snd x)) q) <-> In (i, k) q).
  { rewrite in_map_iff. split; [intros ([j k2] & E & HI); injection E as -> ->; exact HI|intros HI; exists (i, k); split; [reflexivity|exact HI]]. }
  rewrite MI. clear MI.
  assert (LQ : length q <= n).
  { clear -PR. revert PR. generalize (p_ro r) 1 ro q. induction n as [|n IH]; cbn [prep]; intros a b c0 d E; [injection E as <- <-; cbn; lia|].
    destruct (entry (o_log s) b); [|injection E as <- <-; cbn; lia].
    assert (Y : forall ro2, (let (r2, q2) := prep (o_log s) ro2 (b + 1) n in (r2, (b, k) :: q2)) = (c0, d) -> length d <= S n).
    { intros ro2 F. destruct (prep (o_log s) ro2 (b + 1) n) as [r2 q2] eqn:P2. injection F as <- <-. apply IH in P2. cbn. lia. }
    destruct (negb (a =? 0) && (a <=? b)); [|exact (Y a E)]. destruct k; [injection E as <- <-; cbn; lia|exact (Y (b + 1) E)]. }
  assert (SM : forall j, 1 <= j -> entry (o_log s) i = Some k -> j <= i -> exists y, entry (o_log s) j = Some y).
  { intros j J1 EI J2. apply entry_lt in EI. apply entry_some. lia. }
  split.
  - intros HI. destruct (prep_consecutive _ _ _ _ _ _ PR _ _ HI) as [C D]. split; [exact D|]. split; [lia|].
    destruct (marked p h) as [L|]; [|trivial]. destruct B as (B1 & B2 & B3 & B4).
    destruct (prep_ro _ _ _ _ _ _ PR ltac:(lia) ltac:(lia)) as (_ & _ & _ & E). intros j J. destruct (le_lt_dec (p_ro r) j) as [GE|LT].
    + apply (E i k HI). lia.
    + apply B4. lia.
  - intros (EI & LN & C). pose proof (entry_lt _ _ _ EI) as RI. destruct (marked p h) as [L|].
    + destruct B as (B1 & B2 & B3 & B4). apply (prep_ro_all _ _ _ _ _ _ PR); try lia; [exact EI| |].
      * intros x X. apply SM; [lia|exact EI|lia].
      * intros x X. apply C. lia.
    + rewrite B in PR. destruct (prep_zero _ _ _ _ _ PR) as [_ P]. apply P; [lia|exact EI|]. intros x X. apply SM; [lia|exact EI|lia].
Qed.

(** anything sent at all *)
Lemma send_form s e p i k : In (OSend p i k) (snd (step s e)) -> exists n r ro q, e = ESend p n /\ rep p (o_reps s) = Some r /\
  prep (o_log s) (p_ro r) (p_next r) n = (ro, q) /\ In (i, k) q.
Proof.
  intros HI. destruct e; cbn [step] in *; try contradiction.
  - destruct HI as [X|[]]. discriminate X.
  - destruct (o_role s); [| destruct (o_self s || o_maj s)|]; cbn [snd] in HI; rewrite ?in_app_iff, ?in_map_iff in HI;
      repeat (destruct HI as [HI|HI]); try destruct HI as (x & X & _); try discriminate X; try destruct HI as (y & Y & _); try discriminate Y.
  - destruct (rep p0 (o_reps s)); [destruct (Bool.eqb _ _)|]; contradiction.
  - destruct (nth_error (o_calls s) k0) as [[t [p1 b]]|]; [|contradiction]. destruct (negb (t =? o_term s) && _); [destruct HI as [X|[]]; discriminate X|].
    cbn [snd] in HI. destruct (rep p1 (o_reps s)); [|contradiction]. destruct HI as [X|[]]. discriminate X.
  - destruct (leads (o_role s)); [|contradiction]. destruct HI as [X|[]]. discriminate X.
  - destruct (leads (o_role s)); contradiction.
  - destruct (leads (o_role s)); [contradiction|]. destruct HI as [X|[X|[]]]; discriminate X.
  - destruct HI as [X|[]]. discriminate X.
  - destruct (o_role s); try contradiction. destruct HI as [X|[]]. discriminate X.
  - destruct (o_role s); try contradiction. destruct HI as [X|[]]. discriminate X.
  - destruct (leads (o_role s) && negb (p0 =? 0)); [destruct (rep p0 (o_reps s))|]; try contradiction. destruct HI as [X|[]]. discriminate X.
  - destruct (mem p0 (o_conf s) || mem p0 (o_old s)); [contradiction|]. destruct HI as [X|[]]. discriminate X.
  - destruct (rep p0 (o_reps s)) as [r|] eqn:ER; [|contradiction]. destruct (prep (o_log s) (p_ro r) (p_next r) n) as [ro q] eqn:PR. cbn [snd] in HI.
    apply in_map_iff in HI. destruct HI as ([j k2] & X & HI). injection X as -> -> ->. exists n, r, ro, q. auto.
  - destruct (leads (o_role s)); [contradiction|]. destruct HI as [X|[]]. discriminate X.
Qed.
Lemma sent_ok s h e p i k : inv s h -> In (OSend p i k) (snd (step s e)) ->
  entry (hlog h) i = Some k /\ match marked p h with None => True | Some L => forall j, L < j <= i -> entry (hlog h) j = Some KConf end.
Proof.
  intros I HI. destruct (send_form _ _ _ _ _ HI) as (n & r & ro & q & -> & ER & PR & IQ). pose proof (i_rep _ _ I p) as X. rewrite ER in X. destruct X as [A B].
  rewrite <- (i_log _ _ I). split; [exact (proj2 (prep_consecutive _ _ _ _ _ _ PR _ _ IQ))|]. destruct (marked p h) as [L|]; [|trivial].
  destruct B as (B1 & B2 & B3 & B4). destruct (prep_ro _ _ _ _ _ _ PR ltac:(lia) B2) as (_ & _ & _ & E). intros j J. destruct (le_lt_dec (p_ro r) j) as [GE|LT].
  - apply (E i k IQ). lia.
  - apply B4. lia.
Qed.
Lemma nodata_entry l L j k : nodata (skipn L l) = true -> L < j -> entry l j = Some k -> k = KConf.
Proof.
  intros ND LT E. destruct j as [|j]; [discriminate E|]. cbn in E. unfold nodata in ND. rewrite forallb_forall in ND.
  assert (I : In k (skipn L l)).
  { apply (nth_error_In _ (j - L)). rewrite <- E. clear -LT. revert j LT. revert L. induction l as [|x t IH]; intros L j LT.
    - rewrite skipn_nil. destruct (j - L), j; reflexivity.
    - destruct L as [|L]; [cbn [skipn]; rewrite Nat.sub_0_r; reflexivity|]. cbn [skipn]. destruct j as [|j]; [lia|]. cbn [Nat.sub nth_error]. apply IH. lia. }
  specialize (ND _ I). destruct k; [discriminate ND|reflexivity].
Qed.
