From Verif Require Import Base Throttle ThrottleSpec.

Section P.
Variables limit cycle_us max_tasks : Z.
Hypothesis Hl : 0 <= limit.
Hypothesis Hm : 0 <= max_tasks.
Notation t_step := (t_step limit cycle_us max_tasks).
Notation t_run := (t_run limit cycle_us max_tasks).

Definition TI (t : throttle) (n k : Z) : Prop :=
  n <= t_cur t /\ 0 <= t_cur t <= limit /\ t_tasks t = k /\ 0 <= k <= max_tasks.

Lemma step_inv : forall t c t' r n k, sane c -> TI t n k -> t_step t c = Some (t', r) ->
  TI t' (net n [r]) (tasks k [r]) /\
  match c, r with
  | CAcquire _ b, RGrant g _ => 0 <= g <= b
  | CAdd l, RAdd l' ok => l = l' /\ (ok = false -> l = false /\ k = max_tasks)
  | _, _ => True end.
Proof.
  intros t c t' r n k S [I1 [I2 [I3 I4]]] H. destruct c; cbn in H.
  - unfold throttled in H. cbn in S.
    destruct (Z.ltb_spec limit (t_cur t + bytes)).
    + destruct (now - t_last t <=? cycle_us).
      * destruct (Z.ltb_spec (t_cur t) limit); inversion H; subst; cbn; unfold TI; cbn; lia.
      * destruct (Z.ltb_spec limit bytes); inversion H; subst; cbn; unfold TI; cbn; lia.
    + inversion H; subst; cbn; unfold TI; cbn; lia.
  - unfold return_unused in H. cbn in S. destruct (now - elapse <? t_last t); inversion H; subst; cbn; unfold TI; cbn; lia.
  - unfold add_task in H. destruct is_leader; [inversion H; subst; cbn; unfold TI; split; [auto|split; [auto|discriminate]]|].
    destruct (Z.leb_spec max_tasks (t_tasks t)); inversion H; subst; cbn; unfold TI; cbn.
    + split; [lia|]. split; auto. intros _. split; auto. lia.
    + split; [lia|]. split; [auto|discriminate].
  - unfold finish_task in H. destruct is_leader; [inversion H; subst; cbn; unfold TI; auto|].
    destruct (Z.ltb_spec (t_tasks t - 1) 0); inversion H; subst; cbn; unfold TI; cbn; lia.
Qed.

Lemma net_app : forall h1 h2 n, net n (h1 ++ h2) = net (net n h1) h2.
Proof. induction h1 as [|r h1 IH]; intros; cbn; auto. destruct r; cbn; auto. destruct accounted; auto. Qed.
Lemma tasks_app : forall h1 h2 n, tasks n (h1 ++ h2) = tasks (tasks n h1) h2.
Proof. induction h1 as [|r h1 IH]; intros; cbn; auto. destruct r; cbn; auto; try destruct leader; auto. destruct ok; auto. Qed.

Lemma run_inv : forall cs t t' h n k, Forall sane cs -> TI t n k -> t_run t cs = Some (t', h) ->
  TI t' (net n h) (tasks k h) /\
  (forall h1 h2, h = h1 ++ h2 -> net n h1 <= limit /\ 0 <= tasks k h1 <= max_tasks).
Proof.
  induction cs as [|c cs IH]; intros t t' h n k F I H; cbn in H.
  - inversion H; subst. split; auto. intros h1 h2 E. destruct h1; [|discriminate]. cbn. unfold TI in I. lia.
  - destruct (t_step t c) as [[t1 r]|] eqn:E; [|discriminate].
    destruct (t_run t1 cs) as [[t2 rs]|] eqn:E2; [|discriminate]. inversion H; subst.
    inversion F; subst. destruct (step_inv _ _ _ _ _ _ H2 I E) as [I1 _].
    destruct (IH _ _ _ _ _ H3 I1 E2) as [A B].
    change (r :: rs) with ([r] ++ rs). rewrite net_app, tasks_app. split; auto.
    intros h1 h2 Eh. destruct h1 as [|r1 h1].
    + cbn. unfold TI in I. lia.
    + cbn in Eh. inversion Eh; subst. change (r1 :: h1) with ([r1] ++ h1). rewrite net_app, tasks_app. eauto.
Qed.
End P.

Lemma throttle_bound : forall limit cycle_us max_tasks now0 cs t h h1 h2,
  0 <= limit -> 0 <= max_tasks -> Forall sane cs ->
  t_run limit cycle_us max_tasks (th_init cycle_us now0) cs = Some (t, h) -> h = h1 ++ h2 ->
  net 0 h1 <= limit /\ 0 <= tasks 0 h1 <= max_tasks.
Proof.
  intros. eapply (run_inv limit cycle_us max_tasks H) with (n := 0) (k := 0); eauto.
  unfold TI, th_init; cbn. lia.
Qed.

Lemma run_pairs : forall limit cycle_us max_tasks cs t n k t' h, 0 <= limit -> 0 <= max_tasks -> Forall sane cs ->
  TI limit max_tasks t n k ->
  t_run limit cycle_us max_tasks t cs = Some (t', h) ->
  Forall2 (fun c r => match c, r with CAcquire _ b, RGrant g _ => 0 <= g <= b | CAcquire _ _, _ => False | _, _ => True end) cs h.
Proof.
  induction cs as [|c cs IH]; intros t n k t' h Hl Hm F I H; cbn in H.
  - inversion H; subst. constructor.
  - destruct (t_step limit cycle_us max_tasks t c) as [[t1 r]|] eqn:E; [|discriminate].
    destruct (t_run limit cycle_us max_tasks t1 cs) as [[t2 rs]|] eqn:E2; [|discriminate]. inversion H; subst.
    inversion F; subst. destruct (step_inv _ _ _ Hl _ _ _ _ _ _ H2 I E) as [I1 S]. constructor.
    + destruct c; auto. cbn in E. destruct (throttled limit cycle_us t now bytes) as [[? ?] ?]. inversion E; subst. auto.
    + eapply IH; eauto.
Qed.

Lemma throttle_grants : forall limit cycle_us max_tasks now0 cs t h,
  0 <= limit -> 0 <= max_tasks -> Forall sane cs ->
  t_run limit cycle_us max_tasks (th_init cycle_us now0) cs = Some (t, h) ->
  Forall2 (fun c r => match c, r with CAcquire _ b, RGrant g _ => 0 <= g <= b | CAcquire _ _, _ => False | _, _ => True end) cs h.
Proof.
  intros. refine (run_pairs limit cycle_us max_tasks cs _ 0 0 t h H H0 H1 _ H2). unfold TI, th_init; cbn. lia.
Qed.

(** Dying needs a finish without a running task. *)
Lemma throttle_abort : forall limit cycle_us max_tasks cs t n k,
  0 <= limit -> 0 <= max_tasks -> Forall sane cs -> TI limit max_tasks t n k ->
  t_run limit cycle_us max_tasks t cs = None ->
  exists cs1 cs2 t' h, cs = cs1 ++ CFinish false :: cs2 /\
    t_run limit cycle_us max_tasks t cs1 = Some (t', h) /\ tasks k h = 0.
Proof.
  induction cs as [|c cs IH]; intros t n k Hl Hm F I H; cbn in H; [discriminate|].
  inversion F; subst.
  destruct (t_step limit cycle_us max_tasks t c) as [[t1 r]|] eqn:E.
  - destruct (t_run limit cycle_us max_tasks t1 cs) as [[t2 rs]|] eqn:E2; [discriminate|].
    destruct (step_inv _ _ _ Hl _ _ _ _ _ _ H2 I E) as [I1 _].
    destruct (IH _ _ _ Hl Hm H3 I1 E2) as [cs1 [cs2 [t' [h [A [B C]]]]]].
    exists (c :: cs1), cs2, t', ([r] ++ h). subst cs. split; auto. rewrite tasks_app. cbn [t_run]. rewrite E, B. split; auto.
  - destruct c; cbn in E.
    + destruct (throttled limit cycle_us t now bytes) as [[? ?] ?]; discriminate.
    + destruct (return_unused t now acquired consumed elapse); discriminate.
    + destruct (add_task max_tasks t is_leader); discriminate.
    + unfold finish_task in E. destruct is_leader; [discriminate|].
      destruct (Z.ltb_spec (t_tasks t - 1) 0); [|discriminate].
      exists [], cs, t, []. split; auto. split; auto. cbn. unfold TI in I. lia.
Qed.
Lemma throttle_abort0 : forall limit cycle_us max_tasks now0 cs,
  0 <= limit -> 0 <= max_tasks -> Forall sane cs ->
  t_run limit cycle_us max_tasks (th_init cycle_us now0) cs = None ->
  exists cs1 cs2 t' h, cs = cs1 ++ CFinish false :: cs2 /\
    t_run limit cycle_us max_tasks (th_init cycle_us now0) cs1 = Some (t', h) /\ tasks 0 h = 0.
Proof. intros. refine (throttle_abort limit cycle_us max_tasks cs _ 0 0 H H0 H1 _ H2). unfold TI, th_init; cbn. lia. Qed.

Lemma run_app_inv : forall limit cycle_us max_tasks cs1 cs2 t t' h,
  t_run limit cycle_us max_tasks t (cs1 ++ cs2) = Some (t', h) ->
  exists t1 h1 h2, t_run limit cycle_us max_tasks t cs1 = Some (t1, h1) /\
    t_run limit cycle_us max_tasks t1 cs2 = Some (t', h2) /\ h = h1 ++ h2 /\ length h1 = length cs1.
Proof.
  induction cs1 as [|c cs1 IH]; intros cs2 t t' h H; cbn [app t_run] in *.
  - exists t, [], h. auto.
  - destruct (t_step limit cycle_us max_tasks t c) as [[t1 r]|]; [|discriminate].
    destruct (t_run limit cycle_us max_tasks t1 (cs1 ++ cs2)) as [[t2 rs]|] eqn:E; [|discriminate].
    injection H as <- <-. destruct (IH _ _ _ _ E) as (t3 & h1 & h2 & A & B & -> & L).
    rewrite A. exists t3, (r :: h1), h2. cbn. auto.
Qed.
Lemma last_is_cycle_start : forall limit cycle_us max_tasks cs t t' h,
  t_run limit cycle_us max_tasks t cs = Some (t', h) -> t_last t' = cycle_start cycle_us (t_last t) cs h.
Proof.
  induction cs as [|c cs IH]; intros t t' h H; cbn [t_run] in H.
  - injection H as <- <-. reflexivity.
  - destruct (t_step limit cycle_us max_tasks t c) as [[t1 r]|] eqn:E; [|discriminate].
    destruct (t_run limit cycle_us max_tasks t1 cs) as [[t2 rs]|] eqn:E2; [|discriminate].
    injection H as <- <-. rewrite (IH _ _ _ E2). destruct c; cbn [t_step] in E.
    + unfold throttled in E. destruct (limit <? t_cur t + bytes).
      * destruct (now - t_last t <=? cycle_us); injection E as <- <-; reflexivity.
      * injection E as <- <-; reflexivity.
    + unfold return_unused in E. destruct (now - elapse <? t_last t); injection E as <- <-; reflexivity.
    + unfold add_task in E. destruct is_leader; [injection E as <- <-; reflexivity|].
      destruct (max_tasks <=? t_tasks t); injection E as <- <-; reflexivity.
    + unfold finish_task in E. destruct is_leader; [injection E as <- <-; reflexivity|].
      destruct (t_tasks t - 1 <? 0); [discriminate|]. injection E as <- <-; reflexivity.
Qed.
Lemma return_same_cycle : forall limit cycle_us max_tasks now0 cs1 now a u e cs2 t h,
  t_run limit cycle_us max_tasks (th_init cycle_us now0) (cs1 ++ CReturn now a u e :: cs2) = Some (t, h) ->
  exists h1 ok h2, h = h1 ++ RReturn (a - u) ok :: h2 /\ length h1 = length cs1 /\
    (ok = true <-> cycle_start cycle_us (now0 / cycle_us * cycle_us) cs1 h1 <= now - e).
Proof.
  intros limit cycle_us max_tasks now0 cs1 now a u e cs2 t h H.
  destruct (run_app_inv _ _ _ _ _ _ _ _ H) as (t1 & h1 & h2 & A & B & -> & L).
  pose proof (last_is_cycle_start _ _ _ _ _ _ _ A) as Ls. cbn [th_init t_last] in Ls.
  cbn [t_run t_step] in B. unfold return_unused in B. fold (align cycle_us now0).
  rewrite Ls in B. destruct (Z.ltb_spec (now - e) (cycle_start cycle_us (align cycle_us now0) cs1 h1)) as [C|C].
  - destruct (t_run _ _ _ _ cs2) as [[t2 rs]|]; [|discriminate]. injection B as <- <-.
    exists h1, false, rs. split; auto. split; auto. split; [discriminate|lia].
  - destruct (t_run _ _ _ _ cs2) as [[t2 rs]|]; [|discriminate]. injection B as <- <-.
    exists h1, true, rs. split; auto. split; auto. split; auto.
Qed.
