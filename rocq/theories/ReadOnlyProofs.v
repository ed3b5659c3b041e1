(** Lemmas for C63: one request, the replicators and the history. *)
From Verif Require Import Base ReadOnly ReadOnlySpec.
Local Open Scope nat_scope.

Lemma rep_upd p q f l : rep p (upd q f l) = if Nat.eqb q p then option_map f (rep p l) else rep p l.
Proof.
  induction l as [|[x r] t IH]; cbn; [destruct (q =? p); reflexivity|]. destruct (Nat.eqb_spec x q) as [->|N]; cbn.
  - destruct (Nat.eqb_spec q p); reflexivity.
  - destruct (Nat.eqb_spec x p) as [->|N2]; [destruct (Nat.eqb_spec q p); [congruence|reflexivity]|exact IH].
Qed.
Lemma rep_del p q l : rep p (del q l) = if Nat.eqb q p then None else rep p l.
Proof.
  unfold del. induction l as [|[x r] t IH]; cbn; [destruct (q =? p); reflexivity|]. destruct (Nat.eqb_spec x q) as [->|N]; cbn.
  - rewrite IH. destruct (Nat.eqb_spec q p); reflexivity.
  - rewrite IH. destruct (Nat.eqb_spec x p) as [->|N2]; [destruct (Nat.eqb_spec q p); [congruence|reflexivity]|reflexivity].
Qed.
Lemma rep_add p q r l : rep p (l ++ [(q, r)]) = match rep p l with Some x => Some x | None => if Nat.eqb q p then Some r else None end.
Proof. induction l as [|[x y] t IH]; cbn; [reflexivity|]. destruct (x =? p); [reflexivity|exact IH]. Qed.
Lemma rep_map p g c : rep p (map (fun q => (q, g)) c) = if mem p c then Some g else None.
Proof.
  induction c as [|x t IH]; cbn; [reflexivity|]. rewrite IH, (Nat.eqb_sym p x). destruct (x =? p); reflexivity.
Qed.
Lemma mem_In p c : mem p c = true <-> In p c.
Proof.
  unfold mem. rewrite existsb_exists. split; [intros (x & I & E); apply Nat.eqb_eq in E; subst; exact I|intros I; exists p; split; [exact I|apply Nat.eqb_refl]].
Qed.

Lemma entry_lt l i k : entry l i = Some k -> 1 <= i <= length l.
Proof. destruct i as [|j]; [discriminate|]. cbn. intros E. assert (j < length l) by (apply nth_error_Some; congruence). lia. Qed.
Lemma entry_some l i : 1 <= i <= length l -> exists k, entry l i = Some k.
Proof.
  destruct i as [|j]; [lia|]. cbn. intros H. destruct (nth_error l j) eqn:E; [eauto|]. apply nth_error_None in E. lia.
Qed.
Lemma entry_app l l2 i k : entry l i = Some k -> entry (l ++ l2) i = Some k.
Proof. destruct i as [|j]; [discriminate|]. cbn. intros E. rewrite nth_error_app1; [exact E|]. apply nth_error_Some. congruence. Qed.

(** One request. *)
Lemma prep_consecutive l : forall n ro i ro' q, prep l ro i n = (ro', q) -> forall j k, In (j, k) q -> i <= j < i + length q /\ entry l j = Some k.
Proof.
  induction n as [|n IH]; cbn [prep]; intros ro i ro' q E j k HI; [injection E as <- <-; destruct HI|].
  destruct (entry l i) as [k0|] eqn:EN; [|injection E as <- <-; destruct HI].
  assert (A : forall ro2, (let (r2, q2) := prep l ro2 (i + 1) n in (r2, (i, k0) :: q2)) = (ro', q) -> i <= j < i + length q /\ entry l j = Some k).
  { intros ro2 F. destruct (prep l ro2 (i + 1) n) as [r2 q2] eqn:P2. injection F as <- <-. destruct HI as [X|X].
    - injection X as <- <-. cbn. split; [lia|exact EN].
    - destruct (IH _ _ _ _ P2 _ _ X) as [L M]. cbn. split; [lia|exact M]. }
  destruct (negb (ro =? 0) && (ro <=? i)); [|exact (A ro E)]. destruct k0; [injection E as <- <-; destruct HI|exact (A (i + 1) E)].
Qed.

Lemma prep_zero l : forall n i q ro', prep l 0 i n = (ro', q) -> ro' = 0 /\ forall j k, i <= j < i + n -> entry l j = Some k ->
  (forall x, i <= x <= j -> exists y, entry l x = Some y) -> In (j, k) q.
Proof.
  induction n as [|n IH]; cbn [prep]; intros i q ro' E; [injection E as <- <-; split; [reflexivity|lia]|].
  destruct (entry l i) as [k0|] eqn:EN.
  - cbn in E. destruct (prep l 0 (i + 1) n) as [r2 q2] eqn:P2. injection E as <- <-. destruct (IH _ _ _ P2) as [Z0 F]. split; [exact Z0|].
    intros j k HJ EJ A. destruct (Nat.eq_dec i j) as [->|N]; [rewrite EN in EJ; injection EJ as ->; left; reflexivity|].
    right. apply F; [lia|exact EJ|]. intros x X. apply A. lia.
  - injection E as <- <-. split; [reflexivity|]. intros j k HJ EJ A. destruct (A i ltac:(lia)) as [y Y]. congruence.
Qed.

Lemma prep_ro l : forall n ro i ro' q, prep l ro i n = (ro', q) -> ro <> 0 -> i <= ro ->
  ro <= ro' /\ i + length q <= ro' /\ (forall j, ro <= j < ro' -> entry l j = Some KConf) /\
  (forall j k, In (j, k) q -> forall x, ro <= x <= j -> entry l x = Some KConf).
Proof.
  induction n as [|n IH]; cbn [prep]; intros ro i ro' q E NZ LE; [injection E as <- <-; cbn; repeat split; try lia; intros j k []|].
  destruct (entry l i) as [k0|] eqn:EN; [|injection E as <- <-; cbn; repeat split; try lia; intros j k []].
  destruct (Nat.eqb_spec ro 0) as [Z0|_]; [contradiction|]. cbn [negb andb] in E. destruct (Nat.leb_spec ro i) as [GE|LT].
  - assert (i = ro) by lia. subst i. destruct k0; [injection E as <- <-; cbn; repeat split; try lia; intros j k []|].
    destruct (prep l (ro + 1) (ro + 1) n) as [r2 q2] eqn:P2. injection E as <- <-. destruct (IH _ _ _ _ P2 ltac:(lia) ltac:(lia)) as (A & B & C & D).
    cbn [length]. repeat split; try lia.
    + intros j HJ. destruct (Nat.eq_dec j ro) as [->|N]; [exact EN|apply C; lia].
    + intros j k [X|X] x HX; [injection X as <- <-; assert (x = ro) by lia; subst x; exact EN|].
      destruct (Nat.eq_dec x ro) as [->|N]; [exact EN|]. apply (D j k X). lia.
  - destruct (prep l ro (i + 1) n) as [r2 q2] eqn:P2. injection E as <- <-. destruct (IH _ _ _ _ P2 NZ ltac:(lia)) as (A & B & C & D).
    cbn [length]. repeat split; try lia; [exact C|]. intros j k [X|X] x HX; [injection X as <- <-; lia|]. exact (D j k X x HX).
Qed.
Lemma prep_ro_all l : forall n ro i ro' q, prep l ro i n = (ro', q) -> ro <> 0 -> i <= ro ->
  forall j k, i <= j < i + n -> entry l j = Some k -> (forall x, i <= x <= j -> exists y, entry l x = Some y) ->
  (forall x, ro <= x <= j -> entry l x = Some KConf) -> In (j, k) q.
Proof.
  induction n as [|n IH]; cbn [prep]; intros ro i ro' q E NZ LE j k HJ EJ A C; [lia|].
  destruct (entry l i) as [k0|] eqn:EN; [|destruct (A i ltac:(lia)) as [y Y]; congruence].
  destruct (Nat.eqb_spec ro 0) as [Z0|_]; [contradiction|]. cbn [negb andb] in E. destruct (Nat.leb_spec ro i) as [GE|LT].
  - assert (i = ro) by lia. subst i. assert (k0 = KConf) by (specialize (C ro ltac:(lia)); congruence). subst k0.
    destruct (prep l (ro + 1) (ro + 1) n) as [r2 q2] eqn:P2. injection E as <- <-.
    destruct (Nat.eq_dec ro j) as [->|N]; [left; congruence|]. right. apply (IH _ _ _ _ P2); try lia; [exact EJ| |]; intros x X; [apply A; lia|apply C; lia].
  - destruct (prep l ro (i + 1) n) as [r2 q2] eqn:P2. injection E as <- <-.
    destruct (Nat.eq_dec i j) as [->|N]; [left; congruence|]. right. apply (IH _ _ _ _ P2); try lia; [exact EJ| |]; intros x X; [apply A; lia|apply C; lia].
Qed.

(** The replicators and the history. *)
Definition rep_ok (l : list kind) (m : option nat) (r : prog) : Prop :=
  1 <= p_next r <= length l + 1 /\
  match m with
  | None => p_ro r = 0
  | Some L => L + 1 <= p_ro r /\ p_next r <= p_ro r /\ p_ro r <= length l + 1 /\ forall j, L < j < p_ro r -> entry l j = Some KConf
  end.
Record inv (s : rst) (h : hist) : Prop := mkI {
  i_log : o_log s = hlog h; i_role : o_role s = hrole h; i_self : o_self s = hself h; i_term : o_term s = hterm h;
  i_rep : forall p, match rep p (o_reps s) with None => marked p h = None | Some r => rep_ok (o_log s) (marked p h) r end;
  i_fol : o_role s = RFollow -> o_reps s = [] }.

Lemma rep_ok_app l l2 m r : rep_ok l m r -> rep_ok (l ++ l2) m r.
Proof.
  intros [A B]. split; [rewrite app_length; lia|]. destruct m as [L|]; [|exact B]. destruct B as (B1 & B2 & B3 & B4).
  rewrite app_length. repeat split; try lia. intros j J. apply entry_app, B4, J.
Qed.

Lemma log1_done l c t : fold_left log1 (map (fun x : task => ODone (fst x) c) t) l = l.
Proof. induction t; [reflexivity|exact IHt]. Qed.
Lemma log1_data (t : list task) : forall l, fold_left log1 (map (fun _ => OAppend KData) t) l = l ++ map (fun _ => KData) t.
Proof. induction t as [|x t IH]; cbn; intros l; [symmetry; apply app_nil_r|]. rewrite IH, <- app_assoc. reflexivity. Qed.
Lemma log1_send p q : forall l, fold_left log1 (map (fun x : nat * kind => OSend p (fst x) (snd x)) q) l = l.
Proof. induction q; [reflexivity|exact IHq]. Qed.
Lemma role1_done l c t : fold_left role1 (map (fun x : task => ODone (fst x) c) t) l = l.
Proof. induction t; [reflexivity|exact IHt]. Qed.
Lemma role1_data (t : list task) : forall l, fold_left role1 (map (fun _ => OAppend KData) t) l = l.
Proof. induction t as [|x t IH]; cbn; intros l; [reflexivity|exact (IH l)]. Qed.
Lemma role1_send p q : forall l, fold_left role1 (map (fun x : nat * kind => OSend p (fst x) (snd x)) q) l = l.
Proof. induction q; [reflexivity|exact IHq]. Qed.
Lemma mark1_done p n l c t : fold_left (mark1 p n) (map (fun x : task => ODone (fst x) c) t) l = l.
Proof. induction t; [reflexivity|exact IHt]. Qed.
Lemma mark1_data p n (t : list task) : forall l, fold_left (mark1 p n) (map (fun _ => OAppend KData) t) l = l.
Proof. induction t as [|x t IH]; cbn; intros l; [reflexivity|exact (IH l)]. Qed.
Lemma mark1_send p n r q : forall l, fold_left (mark1 p n) (map (fun x : nat * kind => OSend r (fst x) (snd x)) q) l = l.
Proof. induction q; [reflexivity|exact IHq]. Qed.
Ltac ror := rewrite ?fold_left_app, ?log1_done, ?log1_data, ?log1_send, ?role1_done, ?role1_data, ?role1_send.

Lemma set_ro_ok l m r (b : bool) : rep_ok l m r ->
  rep_ok l (if b then match m with Some _ => m | None => Some (length l) end else None) (set_ro (length l) b r).
Proof.
  intros [A B]. destruct b; cbn.
  - destruct m as [L|].
    + destruct (Nat.eqb_spec (p_ro r) 0) as [Z0|_]; [lia|]. split; assumption.
    + rewrite B. cbn. split; [exact A|]. cbn. repeat split; try lia.
  - split; [exact A|reflexivity].
Qed.
Lemma check_all_same s : exists b, check_all s = s_maj b s.
Proof. unfold check_all, check1. destruct (o_old s); eexists; reflexivity. Qed.
Lemma inv_maj s h b : inv s h -> inv (s_maj b s) h. Proof. intros [A1 A2 A3 A4 A5 A6]. constructor; assumption. Qed.
Lemma inv_calls s h b : inv s h -> inv (s_calls b s) h. Proof. intros [A1 A2 A3 A4 A5 A6]. constructor; assumption. Qed.

(** a step whose outputs change nothing that is recorded *)
Lemma inv_quiet s h e o : inv s h -> (forall l, fold_left log1 o l = l) -> (forall r, fold_left role1 o r = r) ->
  (forall p n m, fold_left (mark1 p n) o m = m) -> hself ((e, o) :: h) = hself h -> hterm ((e, o) :: h) = hterm h -> inv s ((e, o) :: h).
Proof.
  intros [A1 A2 A3 A4 A5 A6] L R M F T. constructor; cbn [hlog hrole marked]; rewrite ?L, ?R, ?F, ?T; try assumption.
  intros p. rewrite M. exact (A5 p).
Qed.

Lemma init_inv c o : inv (init c o) []. Proof. constructor; try reflexivity. Qed.

Ltac q0 := intros; cbn [fst snd]; rewrite ?log1_done, ?role1_done, ?mark1_done; reflexivity.
Lemma step_inv s h e : inv s h -> inv (fst (step s e)) ((e, snd (step s e)) :: h).
Proof.
  intros I. pose proof I as [A1 A2 A3 A4 A5 A6]. destruct e; cbn [step fst snd].
  - constructor; try assumption; reflexivity.
  - constructor; try assumption; reflexivity.
  - apply inv_quiet; try assumption; reflexivity.
  - (* apply *) destruct (o_role s) eqn:RO; cbn [fst snd].
    + apply inv_quiet; try assumption; q0.
    + destruct (o_self s || o_maj s); [apply inv_quiet; try assumption; q0|]. cbn [fst snd].
      constructor; cbn [o_log o_role o_self o_term o_reps s_log hlog hrole hself hterm marked]; ror.
      * rewrite A1. reflexivity.
      * congruence.
      * exact A3.
      * exact A4.
      * intros p. rewrite fold_left_app, mark1_done, mark1_data. specialize (A5 p). destruct (rep p (o_reps s)); [apply rep_ok_app; exact A5|exact A5].
      * intros X. congruence.
    + apply inv_quiet; try assumption; q0.
  - (* beat *) destruct (rep p (o_reps s)); [destruct (Bool.eqb _ _)|]; cbn [fst snd]; apply inv_quiet; try reflexivity; try assumption; apply inv_calls, I.
  - (* call *) destruct (nth_error (o_calls s) k) as [[t [p b]]|]; [|apply inv_quiet; try reflexivity; assumption].
    destruct (negb (t =? o_term s) && _); [cbn [fst snd]; apply inv_quiet; try reflexivity; apply inv_calls, I|].
    destruct (check_all_same (s_reps (upd p (set_ro (length (o_log s)) b) (o_reps s)) (s_calls (firstn k (o_calls s) ++ skipn (S k) (o_calls s)) s))) as [bb E].
    cbn [fst snd]. rewrite E. apply inv_maj. constructor; cbn [o_log o_role o_self o_term o_reps s_reps s_calls hlog hrole hself hterm marked].
    + rewrite A1. destruct (rep p (o_reps s)); reflexivity.
    + rewrite A2. destruct (rep p (o_reps s)); reflexivity.
    + exact A3.
    + exact A4.
    + intros p2. rewrite rep_upd. specialize (A5 p2). destruct (Nat.eqb_spec p p2) as [->|N].
      * destruct (rep p2 (o_reps s)) as [r|]; cbn [option_map]; [|exact A5]. cbn [fold_left mark1]. rewrite Nat.eqb_refl, <- A1. apply set_ro_ok; exact A5.
      * destruct (rep p (o_reps s)); cbn [fold_left mark1]; [rewrite (proj2 (Nat.eqb_neq _ _) N)|]; exact A5.
    + intros X. rewrite (A6 X). reflexivity.
  - (* conf *) destruct (leads (o_role s)) eqn:LE; [|apply inv_quiet; try reflexivity; assumption]. cbn [fst snd].
    constructor; cbn [o_log o_role o_self o_term o_reps s_conf s_log hlog hrole hself hterm marked fold_left log1 role1 mark1]; try assumption.
    + rewrite A1. reflexivity.
    + intros p. specialize (A5 p). destruct (rep p (o_reps s)); [apply rep_ok_app; exact A5|exact A5].
  - (* conf done *) destruct (leads (o_role s)); cbn [fst snd]; apply inv_quiet; try reflexivity; try assumption.
    destruct (check_all_same s) as [b E]. rewrite E. apply inv_maj, I.
  - (* elect *) destruct (leads (o_role s)) eqn:LE; [apply inv_quiet; try reflexivity; assumption|]. cbn [fst snd].
    constructor; cbn [o_log o_role o_self o_term o_reps s_log s_reps s_role s_term hlog hrole hself hterm marked fold_left log1 role1 mark1 existsb orb]; try assumption.
    + rewrite A1. reflexivity.
    + reflexivity.
    + rewrite A4. reflexivity.
    + intros p. rewrite rep_map. destruct (mem p _); [|reflexivity]. split; cbn; [rewrite app_length; cbn; lia|reflexivity].
    + discriminate.
  - (* step *) cbn [fst snd]. constructor; cbn [o_log o_role o_self o_term o_reps s_reps s_maj s_role s_term hlog hrole hself hterm marked fold_left log1 role1 mark1]; try assumption; try reflexivity.
    rewrite A4. reflexivity.
  - (* transfer *) destruct (o_role s) eqn:RO; cbn [fst snd]; try (apply inv_quiet; try reflexivity; assumption).
    constructor; cbn [o_log o_role o_self o_term o_reps s_role hlog hrole hself hterm marked fold_left log1 role1 mark1]; try assumption; try reflexivity. discriminate.
  - destruct (o_role s) eqn:RO; cbn [fst snd]; try (apply inv_quiet; try reflexivity; assumption).
    constructor; cbn [o_log o_role o_self o_term o_reps s_role hlog hrole hself hterm marked fold_left log1 role1 mark1]; try assumption; try reflexivity. discriminate.
  - (* add *) destruct (leads (o_role s) && negb (p =? 0)) eqn:LE; [|apply inv_quiet; try reflexivity; assumption]. apply andb_prop in LE. destruct LE as [LE _].
    destruct (rep p (o_reps s)) as [r|] eqn:ER; [apply inv_quiet; try reflexivity; assumption|]. cbn [fst snd].
    constructor; cbn [o_log o_role o_self o_term o_reps s_reps hlog hrole hself hterm marked fold_left log1 role1 mark1]; try assumption.
    + intros q. rewrite rep_add. specialize (A5 q). destruct (Nat.eqb_spec p q) as [->|N].
      * rewrite ER. split; cbn; [lia|reflexivity].
      * destruct (rep q (o_reps s)); exact A5.
    + intros X. rewrite X in LE. discriminate LE.
  - (* del *) destruct (mem p (o_conf s) || mem p (o_old s)); [apply inv_quiet; try reflexivity; assumption|]. cbn [fst snd].
    constructor; cbn [o_log o_role o_self o_term o_reps s_reps hlog hrole hself hterm marked fold_left log1 role1 mark1]; try assumption.
    + intros q. rewrite rep_del. specialize (A5 q). destruct (p =? q); [reflexivity|exact A5].
    + intros X. rewrite (A6 X). reflexivity.
  - (* send *) destruct (rep p (o_reps s)) as [r|] eqn:ER; [|apply inv_quiet; try reflexivity; assumption].
    destruct (prep (o_log s) (p_ro r) (p_next r) n) as [ro q] eqn:PR. cbn [fst snd].
    assert (LQ : q = [] \/ p_next r + length q <= length (o_log s) + 1).
    { destruct q as [|[j k] q'] eqn:EQ; [left; reflexivity|right]. rewrite <- EQ in *.
      assert (exists j2 k2, In (j2, k2) q /\ j2 + 1 = p_next r + length q) as (j2 & k2 & HI & E).
      { assert (G : forall n ro i ro' q, prep (o_log s) ro i n = (ro', q) -> q <> [] -> exists j k, In (j, k) q /\ j + 1 = i + length q).
        { clear. induction n as [|n IH]; cbn [prep]; intros ro i ro' q E N; [injection E as <- <-; contradiction|].
          destruct (entry (o_log s) i) as [k0|]; [|injection E as <- <-; contradiction].
          assert (A : forall ro2, (let (r2, q2) := prep (o_log s) ro2 (i + 1) n in (r2, (i, k0) :: q2)) = (ro', q) -> exists j k, In (j, k) q /\ j + 1 = i + length q).
          { intros ro2 F. destruct (prep (o_log s) ro2 (i + 1) n) as [r2 q2] eqn:P2. injection F as <- <-. destruct q2 as [|x q2].
            - exists i, k0. split; [left; reflexivity|cbn; lia].
            - destruct (IH _ _ _ _ P2 ltac:(discriminate)) as (j & k & X & Y). exists j, k. split; [right; exact X|cbn in *; lia]. }
          destruct (negb (ro =? 0) && (ro <=? i)); [|exact (A ro E)]. destruct k0; [injection E as <- <-; contradiction|exact (A (i + 1) E)]. }
        apply (G _ _ _ _ _ PR). rewrite EQ. discriminate. }
      destruct (prep_consecutive _ _ _ _ _ _ PR _ _ HI) as [_ X]. apply entry_lt in X. lia. }
    constructor; cbn [o_log o_role o_self o_term o_reps s_reps hlog hrole hself hterm marked]; ror; try assumption.
    + intros p2. rewrite mark1_send, rep_upd. specialize (A5 p2). destruct (Nat.eqb_spec p p2) as [->|N]; [|exact A5]. rewrite ER in *. cbn [option_map].
      destruct A5 as [B C]. assert (B' : 1 <= p_next r + length q <= length (o_log s) + 1) by (destruct LQ as [->|LQ]; cbn; lia).
      split; [exact B'|]. cbn [p_ro p_next]. destruct (marked p2 h) as [L|].
      * destruct C as (C1 & C2 & C3 & C4). destruct (prep_ro _ _ _ _ _ _ PR ltac:(lia) C2) as (D1 & D2 & D3 & _).
        assert (D5 : ro <= length (o_log s) + 1).
        { destruct (Nat.eq_dec ro (p_ro r)) as [->|N]; [exact C3|]. assert (F := D3 (ro - 1) ltac:(lia)). apply entry_lt in F. lia. }
        repeat split; try lia. intros j J. destruct (le_lt_dec (p_ro r) j); [apply D3; lia|apply C4; lia].
      * rewrite C in PR. exact (proj1 (prep_zero _ _ _ _ _ PR)).
    + intros X. rewrite (A6 X) in ER. discriminate ER.
  - (* rewind *) cbn [fst snd]. constructor; cbn [o_log o_role o_self o_term o_reps s_reps hlog hrole hself hterm marked fold_left]; try assumption.
    + intros p2. rewrite rep_upd. specialize (A5 p2). destruct (Nat.eqb_spec p p2) as [->|N]; [|exact A5]. destruct (rep p2 (o_reps s)) as [r|]; [|exact A5].
      cbn [option_map]. destruct A5 as [B C]. split; cbn [p_next p_ro]; [lia|]. destruct (marked p2 h) as [L|]; [|exact C].
      destruct C as (C1 & C2 & C3 & C4). repeat split; try lia. exact C4.
    + intros X. rewrite (A6 X). reflexivity.
  - (* replace *) destruct (leads (o_role s)) eqn:LE; [apply inv_quiet; try reflexivity; assumption|]. cbn [fst snd].
    assert (X : o_role s = RFollow) by (destruct (o_role s); [reflexivity|discriminate LE|discriminate LE]).
    constructor; cbn [o_log o_role o_self o_term o_reps s_conf s_log hlog hrole hself hterm marked fold_left log1 role1 mark1]; try assumption; try reflexivity.
    intros p. specialize (A5 p). rewrite (A6 X) in *. exact A5.
Qed.

Lemma run_inv es : forall s h, inv s h -> inv (fst (run s h es)) (snd (run s h es)).
Proof.
  induction es as [|e t IH]; intros s h I; [exact I|]. cbn [run]. pose proof (step_inv s h e I) as J. destruct (step s e) as [s2 o] eqn:E. exact (IH _ _ J).
Qed.
Lemma lives_inv c o es s h : lives c o es = (s, h) -> inv s h.
Proof. intros L. pose proof (run_inv es _ _ (init_inv c o)) as J. unfold lives in L. rewrite L in J. exact J. Qed.
