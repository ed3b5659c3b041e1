(** C64: files that can only be read or written in order. *)
From Verif Require Import Base BufFile BufFileSpec BufFileProofs.
Local Open Scope nat_scope.

(** A read that succeeds returns the file's bytes at the offset: as many as were asked for, fewer only because the file ends there; trailing zeros may be
    missing from the data, never from the count. *)
Theorem buffered_read_is_exact F s h off size a s' need n d : reads F s h -> read off size a s = (s', need, RData n d) -> delivers F (fetched h) need a ->
  n = min size (length F - off) /\ off <= length F /\ length d <= n /\ d ++ zeros (n - length d) = firstn size (skipn off F).
Proof.
  intros R E D. pose proof (reads_inv F s h R) as I. destruct (read_inv F s h off size a s' need _ I E D) as [_ (A & B & C & G)].
  assert (off <= length F) by (pose proof (ri_end F s h I); rewrite (ri_fetched F s h I) in *; lia).
  assert (LN : length (d ++ zeros (n - length d)) = n) by (rewrite app_length, zeros_len; lia).
  rewrite G, firstn_length, skipn_length in LN. repeat split; try assumption; lia.
Qed.

(** Which reads are let through: exactly those between the last one's offset and the end of what the device has delivered, until the device fails; after its
    failure every read fails with its error. *)
Theorem buffered_read_accepts F s h off size a s' need r : reads F s h -> read off size a s = (s', need, r) -> delivers F (fetched h) need a ->
  match failed h with
  | Some e => r = RErr e /\ need = None
  | None => if (lastoff h <=? off) && (off <=? fetched h)
            then match need, a with Some _, RFail e => r = RErr (errno_or_eio e) | _, _ => exists n d, r = RData n d end
            else r = RErr B_EINVAL /\ need = None
  end.
Proof.
  intros R E D. pose proof (reads_inv F s h R) as I. pose proof (ri_err F s h I) as X. pose proof (ri_last F s h I) as Y. pose proof (ri_fetched F s h I) as Z.
  unfold read in E. rewrite X. destruct (Nat.eqb_spec (r_err s) 0) as [Z0|NZ]; cbn [negb] in E; [|injection E as <- <- <-; split; reflexivity].
  rewrite <- Y, <- Z. destruct (Nat.leb_spec (r_off s) off) as [LO|LO]; destruct (Nat.ltb_spec off (r_off s)); try lia; cbn [orb andb] in *; [|injection E as <- <- <-; split; reflexivity].
  destruct (Nat.leb_spec off (r_off s + r_size s)) as [HI|HI]; destruct (Nat.ltb_spec (r_off s + r_size s) off); try lia; [|injection E as <- <- <-; split; reflexivity].
  destruct (wants off size (seek_to off s)); [destruct a|]; injection E as <- <- <-; try reflexivity; unfold serve; eexists; eexists; reflexivity.
Qed.

(** Reading on: after a read at [off] that returned [n] bytes, a read anywhere from [off] to [off + n] is let through (a caller that reads in order, or again
    from where it was, is never refused). *)
Theorem buffered_reading_on_is_accepted F s h off size a s' need n d off2 : reads F s h -> read off size a s = (s', need, RData n d) -> delivers F (fetched h) need a ->
  off <= off2 <= off + n -> forall size2 l2 m2, exists n2 d2, snd (read off2 size2 (ROk l2 m2) s') = RData n2 d2.
Proof.
  intros R E D L size2 l2 m2. pose proof (reads_inv F s h R) as I. destruct (read_inv F s h off size a s' need _ I E D) as [J (A & B & C & G)].
  assert (EO : r_off s' = off /\ off + n <= r_off s' + r_size s').
  { unfold read in E. destruct (negb (r_err s =? 0)); [discriminate E|]. destruct ((off <? r_off s) || (r_off s + r_size s <? off)) eqn:X; [discriminate E|].
    apply Bool.orb_false_elim in X. destruct X as [X1 X2]. apply Nat.ltb_ge in X1. apply Nat.ltb_ge in X2.
    assert (S1 : r_off (seek_to off s) = off) by (unfold seek_to; destruct (Nat.ltb_spec (r_off s) off); cbn; lia).
    destruct (wants off size (seek_to off s)); [destruct a as [e|dd m]; [discriminate E|]|]; injection E as <- _ En _; unfold fill; cbn [r_off r_size] in *; lia. }
  assert (RE : r_err s' = 0).
  { pose proof (ri_err F s' _ J) as X. destruct (Nat.eqb_spec (r_err s') 0) as [Y|Y]; [exact Y|]. cbn [failed c_need c_ans] in X. rewrite A in X.
    destruct need; [|discriminate X]. destruct a; [|discriminate X]. exfalso. unfold read in E. destruct (negb (r_err s =? 0)); [discriminate E|].
    destruct ((off <? r_off s) || (r_off s + r_size s <? off)); [discriminate E|]. destruct (wants off size (seek_to off s)); [discriminate E|]. injection E as _ E2 _ _. discriminate E2. }
  unfold read. rewrite RE. cbn [Nat.eqb negb].
  destruct (Nat.ltb_spec off2 (r_off s')); [lia|]. destruct (Nat.ltb_spec (r_off s' + r_size s') off2); [lia|]. cbn [orb].
  destruct (wants off2 size2 (seek_to off2 s')); unfold serve; eexists; eexists; reflexivity.
Qed.

(** size() is unknown (SSIZE_MAX) until the device has come to the end, and then exact. *)
Theorem buffered_read_size F s h : reads F s h -> rsize s = if ended h then Some (length F) else None.
Proof.
  intros R. pose proof (reads_inv F s h R) as I. unfold rsize. rewrite (ri_eof F s h I). destruct (ended h) eqn:E; [|reflexivity]. f_equal. apply (ri_full F s h I).
  rewrite (ri_eof F s h I). exact E.
Qed.

(** Writing: the device holds a prefix of what was accepted, every byte in its place, and nothing else; close() says yes exactly when it holds all, and no failure was
    ever reported.  If no write leaves a hole while the device has not taken everything given to it. *)
Theorem buffered_writes_land s h : writes s h -> calm h -> (exists rest, accepted h = w_dev s ++ rest) /\ (wclose s = true -> w_dev s = accepted h /\ w_err s = 0).
Proof.
  intros W C. pose proof (writes_inv s h W C) as [P A PR ER]. split; [exact PR|]. unfold wclose. destruct (w_buf s) eqn:EB; [|discriminate]. intros _.
  destruct (Nat.eq_dec (w_err s) 0) as [Z0|NZ]; [|contradiction (ER NZ); reflexivity]. split; [|exact Z0]. rewrite <- (A Z0), app_nil_r. reflexivity.
Qed.
(** In particular with a device that takes everything at once, whatever the holes. *)
Theorem buffered_writes_land_at_once s h : writes s h -> takes_all h -> w_dev s = accepted h /\ wclose s = true.
Proof.
  intros W T. destruct (takes_all_empty s h W T) as [B E]. split; [|unfold wclose; rewrite B; reflexivity].
  apply (buffered_writes_land s h W (takes_all_calm h T)). unfold wclose. rewrite B. reflexivity.
Qed.
(** Which writes are accepted: exactly those that do not go back, until the device fails; from then on all fail with its error. *)
Theorem buffered_write_accepts s h off d a : writes s h -> calm h ->
  snd (write off d a s) = if negb (Nat.eqb (w_err s) 0) then WErr (w_err s) else if off <? wend h then WErr B_EINVAL
                          else match a with WFail e => if Nat.eqb (length (w_buf (if wend h <? off then seek off s else s) ++ d)) 0 then WSize (length d) else WErr (errno_or_eio e) | WOk _ => WSize (length d) end.
Proof.
  intros W C. pose proof (writes_inv s h W C) as [P A PR ER]. unfold write. destruct (Nat.eqb_spec (w_err s) 0) as [Z0|NZ]; cbn [negb]; [|reflexivity].
  destruct (P Z0) as [_ P2]. rewrite P2. destruct (off <? wend h); [reflexivity|].
  destruct (w_buf (if wend h <? off then seek off s else s) ++ d); [destruct a; reflexivity|]. destruct a; reflexivity.
Qed.
(** Not when a write leaves a hole while bytes are waiting: they are written at the other side of the hole, and so is everything after them; the writes and close()
    succeed. *)
Theorem buffered_write_with_hole_refuted : exists s h, writes s h /\ (forall c, In c h -> exists n, k_res c = WSize n) /\ wclose s = true /\
  accepted h = [(0, 7%Z); (1, 8%Z); (10, 9%Z)] /\ w_dev s = [(0, 7%Z); (10, 8%Z); (11, 9%Z)].
Proof.
  eexists. eexists. split.
  - eapply writes1 with (off := 10) (d := [9%Z]) (a := WOk 2); [eapply writes1 with (off := 0) (d := [7%Z; 8%Z]) (a := WOk 1); [apply writes0|reflexivity]|reflexivity].
  - split; [|repeat split]. intros c [<-|[<-|[]]]; eexists; reflexivity.
Qed.

(** The hypotheses are met. *)
Definition file : list Z := [1; 2; 3; 0; 0; 6; 7]%Z.
Example reading : exists s h, reads file s h /\ fetched h = 7 /\ ended h = true /\ rsize s = Some 7 /\ map c_res h = [RData 0 []; RErr B_EINVAL; RData 3 [0; 6; 7]; RData 3 [3]; RData 2 [1; 2]]%Z.
Proof.
  eexists. eexists. split.
  - eapply reads1 with (off := 7) (size := 5) (a := ROk [] 0); [eapply reads1 with (off := 1) (size := 5) (a := ROk [] 0); [eapply reads1 with (off := 4) (size := 9) (a := ROk [6; 7]%Z 2); [eapply reads1 with (off := 2) (size := 3) (a := ROk [3]%Z 3); [eapply reads1 with (off := 0) (size := 2) (a := ROk [1; 2]%Z 2); [apply reads0|reflexivity|cbn; repeat split; lia]|reflexivity|cbn; repeat split; lia]|reflexivity|cbn; repeat split; lia]|reflexivity|cbn; repeat split; lia]|reflexivity|cbn; repeat split; lia].
  - repeat split.
Qed.
Example writing : exists s h, writes s h /\ calm h /\ wclose s = true /\ w_dev s = [(0, 7%Z); (1, 8%Z); (5, 9%Z)] /\ accepted h = w_dev s.
Proof.
  eexists. eexists. split.
  - eapply writes1 with (off := 5) (d := [9%Z]) (a := WOk 1); [eapply writes1 with (off := 2) (d := []) (a := WOk 1); [eapply writes1 with (off := 0) (d := [7%Z; 8%Z]) (a := WOk 1); [apply writes0|reflexivity]|reflexivity]|reflexivity].
  - split; [|repeat split]. intros h1 c h2 s E W L.
    destruct h1 as [|x1 [|x2 [|x3 [|x4 h1]]]]; cbn in E; try discriminate E; injection E; intros; subst.
    + assert (W' := W). inversion W as [|t h2 o2 d2 a2 t' r2 V2 E2]; subst. inversion V2 as [|t2 h3 o3 d3 a3 t3 r3 V3 E3]; subst. inversion V3; subst.
      vm_compute in E3. injection E3 as E3. subst t. vm_compute in E2. injection E2 as E2. subst s. reflexivity.
    + cbn in L. lia.
    + cbn in L. lia.
Qed.

Print Assumptions buffered_read_is_exact.
Print Assumptions buffered_read_accepts.
Print Assumptions buffered_reading_on_is_accepted.
Print Assumptions buffered_read_size.
Print Assumptions buffered_writes_land.
Print Assumptions buffered_writes_land_at_once.
Print Assumptions buffered_write_accepts.
Print Assumptions buffered_write_with_hole_refuted.
