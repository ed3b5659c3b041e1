(** Lemmas for C64. *)
From Verif Require Import Base BufFile BufFileSpec.
Local Open Scope nat_scope.

Lemma skipn_skipn' {A} (l : list A) : forall a b, skipn a (skipn b l) = skipn (b + a) l.
Proof. induction l as [|x t IH]; intros a b; [rewrite !skipn_nil; reflexivity|]. destruct b as [|b]; [reflexivity|]. cbn. apply IH. Qed.
Lemma firstn_skipn_comm' {A} (l : list A) : forall a b, firstn a (skipn b l) = skipn b (firstn (b + a) l).
Proof. intros a b. rewrite firstn_skipn_comm. reflexivity. Qed.
Lemma firstn_split {A} (l : list A) : forall a b, firstn a l ++ firstn b (skipn a l) = firstn (a + b) l.
Proof. induction l as [|x t IH]; intros a b; [rewrite skipn_nil, !firstn_nil; reflexivity|]. destruct a as [|a]; [reflexivity|]. cbn. f_equal. apply IH. Qed.
Lemma zeros_len n : length (zeros n) = n. Proof. apply repeat_length. Qed.
Lemma zeros_app a b : zeros a ++ zeros b = zeros (a + b). Proof. symmetry. apply repeat_app. Qed.
Lemma skipn_zeros a b : skipn a (zeros b) = zeros (b - a).
Proof. unfold zeros. revert a. induction b as [|b IH]; intros [|a]; try reflexivity. cbn. apply IH. Qed.
Lemma firstn_zeros a b : firstn a (zeros b) = zeros (min a b).
Proof. unfold zeros. revert a. induction b as [|b IH]; intros [|a]; try reflexivity. cbn. f_equal. apply IH. Qed.

(** the reading adaptor: the buffer, filled up with zeros, is a piece of the file *)
Record rinv (F : list Z) (s : rd) (h : list rcall) : Prop := mkRI {
  ri_fetched : r_off s + r_size s = fetched h;
  ri_last : r_off s = lastoff h;
  ri_len : length (r_buf s) <= r_size s;
  ri_end : r_off s + r_size s <= length F;
  ri_buf : r_buf s ++ zeros (r_size s - length (r_buf s)) = firstn (r_size s) (skipn (r_off s) F);
  ri_eof : r_eof s = ended h;
  ri_full : r_eof s = true -> r_off s + r_size s = length F;
  ri_err : failed h = if Nat.eqb (r_err s) 0 then None else Some (r_err s) }.

Lemma rinv0 F : rinv F rd0 [].
Proof. constructor; cbn; try reflexivity; try lia; discriminate. Qed.

Lemma errno_nz e : errno_or_eio e <> 0.
Proof. unfold errno_or_eio. destruct (Nat.eqb_spec e 0); [discriminate|assumption]. Qed.

Lemma seek_ok F s off : length (r_buf s) <= r_size s -> r_off s + r_size s <= length F ->
  r_buf s ++ zeros (r_size s - length (r_buf s)) = firstn (r_size s) (skipn (r_off s) F) -> r_off s <= off <= r_off s + r_size s ->
  let s1 := seek_to off s in
  r_off s1 = off /\ r_off s1 + r_size s1 = r_off s + r_size s /\ length (r_buf s1) <= r_size s1 /\ r_eof s1 = r_eof s /\ r_err s1 = r_err s /\
  r_buf s1 ++ zeros (r_size s1 - length (r_buf s1)) = firstn (r_size s1) (skipn (r_off s1) F).
Proof.
  intros L E B H. unfold seek_to. destruct (Nat.ltb_spec (r_off s) off) as [LT|GE]; cbn.
  - set (k := off - r_off s). split; [reflexivity|]. split; [lia|]. rewrite skipn_length. split; [lia|]. split; [reflexivity|]. split; [reflexivity|].
    replace (skipn off F) with (skipn k (skipn (r_off s) F)) by (rewrite skipn_skipn'; f_equal; lia).
    rewrite firstn_skipn_comm'. replace (k + (r_size s - k)) with (r_size s) by lia. rewrite <- B, skipn_app, skipn_zeros.
    assert (S1 : skipn (min k (length (r_buf s))) (r_buf s) = skipn k (r_buf s)).
    { destruct (le_lt_dec k (length (r_buf s))); [rewrite Nat.min_l by lia; reflexivity|]. rewrite Nat.min_r by lia. rewrite !skipn_all2 by lia. reflexivity. }
    rewrite S1. f_equal. unfold zeros. f_equal. lia.
  - repeat split; try lia; try assumption.
Qed.

Lemma serve_ok F s size : length (r_buf s) <= r_size s -> r_off s + r_size s <= length F ->
  r_buf s ++ zeros (r_size s - length (r_buf s)) = firstn (r_size s) (skipn (r_off s) F) -> (r_size s < size -> r_off s + r_size s = length F) ->
  exists n d, serve size s = RData n d /\ length d <= n /\ d ++ zeros (n - length d) = firstn size (skipn (r_off s) F).
Proof.
  intros L E B H. unfold serve. set (n := min (r_size s) size). exists n, (firstn (min (length (r_buf s)) n) (r_buf s)). split; [reflexivity|].
  rewrite firstn_length. split; [lia|].
  assert (E1 : firstn size (skipn (r_off s) F) = firstn n (skipn (r_off s) F)).
  { destruct (le_lt_dec size (r_size s)); [f_equal; lia|]. rewrite !firstn_all2; [reflexivity| |]; rewrite skipn_length; lia. }
  rewrite E1. replace (firstn n (skipn (r_off s) F)) with (firstn n (firstn (r_size s) (skipn (r_off s) F))) by (rewrite firstn_firstn; f_equal; lia).
  rewrite <- B, firstn_app, firstn_zeros.
  assert (S1 : firstn (min (length (r_buf s)) n) (r_buf s) = firstn n (r_buf s)).
  { destruct (le_lt_dec n (length (r_buf s))); [rewrite Nat.min_r by lia; reflexivity|]. rewrite Nat.min_l by lia. rewrite firstn_all. symmetry. apply firstn_all2. lia. }
  rewrite S1. f_equal. f_equal. lia.
Qed.

Lemma fill_ok F need d n s : length (r_buf s) <= r_size s -> r_off s + r_size s <= length F ->
  r_buf s ++ zeros (r_size s - length (r_buf s)) = firstn (r_size s) (skipn (r_off s) F) -> delivers F (r_off s + r_size s) (Some need) (ROk d n) ->
  let s2 := fill need d n s in
  length (r_buf s2) <= r_size s2 /\ r_off s2 + r_size s2 <= length F /\ r_buf s2 ++ zeros (r_size s2 - length (r_buf s2)) = firstn (r_size s2) (skipn (r_off s2) F).
Proof.
  intros L E B (D1 & D2 & D3 & D4). unfold fill. cbn [r_buf r_size r_off].
  assert (SP : firstn (r_size s + n) (skipn (r_off s) F) = firstn (r_size s) (skipn (r_off s) F) ++ firstn n (skipn (r_off s + r_size s) F)).
  { rewrite <- firstn_split, skipn_skipn'. reflexivity. }
  rewrite SP, <- B, <- D3. destruct d as [|x t] eqn:ED.
  - split; [lia|]. split; [lia|]. cbn [app length]. rewrite Nat.sub_0_r, <- app_assoc, zeros_app. f_equal. f_equal. lia.
  - rewrite <- ED in *. unfold resize. rewrite firstn_all2 by lia. rewrite !app_length, repeat_length. split; [lia|]. split; [lia|].
    rewrite <- !app_assoc. do 3 f_equal. f_equal. lia.
Qed.

Lemma read_inv F s h off size a s' need r : rinv F s h -> read off size a s = (s', need, r) -> delivers F (fetched h) need a ->
  rinv F s' (mkRC off size need a r :: h) /\
  match r with
  | RData n d => failed h = None /\ lastoff h <= off <= fetched h /\ length d <= n /\ d ++ zeros (n - length d) = firstn size (skipn off F)
  | RErr e => failed h = Some e \/ e = B_EINVAL /\ failed h = None /\ ~ (lastoff h <= off <= fetched h) \/
              exists e0 k, need = Some k /\ a = RFail e0 /\ e = errno_or_eio e0 /\ failed h = None /\ lastoff h <= off <= fetched h
  end.
Proof.
  intros I R D. pose proof I as [A1 A2 A3 A4 A5 A6 A7 A8]. unfold read in R. destruct (Nat.eqb_spec (r_err s) 0) as [Z0|NZ]; cbn [negb] in R.
  2:{ injection R as <- <- <-. split; [|left; exact A8]. constructor; cbn [fetched lastoff ended failed c_need c_ans c_res]; rewrite ?Bool.orb_false_r, ?Nat.add_0_r; try assumption.
      rewrite A8. destruct (Nat.eqb_spec (r_err s) 0); [contradiction|reflexivity]. }
  destruct (Nat.ltb_spec off (r_off s)) as [LO|LO]; cbn [orb] in R; [|destruct (Nat.ltb_spec (r_off s + r_size s) off) as [HI|HI]].
  1,2: injection R as <- <- <-; split; [constructor; cbn [fetched lastoff ended failed c_need c_ans c_res]; rewrite ?Bool.orb_false_r, ?Nat.add_0_r; try assumption;
      rewrite A8, Z0; reflexivity|right; left; split; [reflexivity|]; split; [exact A8|rewrite <- A2, <- A1; lia]].
  destruct (seek_ok F s off A3 A4 A5 (conj LO HI)) as (S1 & S2 & S3 & S4 & S5 & S6). set (s1 := seek_to off s) in *.
  destruct (wants off size s1) as [k|] eqn:W.
  - unfold wants in W. rewrite S4 in W. destruct (r_eof s) eqn:EO; [discriminate W|]. cbn [negb andb] in W. destruct (Nat.ltb_spec (r_off s1 + r_size s1) (off + size)) as [LT|]; [|discriminate W].
    injection W as <-. destruct a as [e|d n].
    + injection R as <- <- <-. split.
      * constructor; cbn [r_buf r_off r_size r_eof r_err fetched lastoff ended failed c_need c_ans c_res c_off]; rewrite ?Bool.orb_false_r, ?Nat.add_0_r; try assumption; try lia.
        -- rewrite S4. exact A6.
        -- rewrite S4. discriminate.
        -- rewrite A8. pose proof (errno_nz e) as X. apply Nat.eqb_neq in X. rewrite X. reflexivity.
      * right. right. eexists. eexists. repeat split; try reflexivity; lia || exact A8.
    + set (need0 := off + size - r_off s1 - r_size s1) in *. injection R as <- <- <-. rewrite <- A1, <- S2 in D.
      destruct (fill_ok F need0 d n s1 S3 ltac:(lia) S6 D) as (G1 & G2 & G3). destruct D as (D1 & D2 & D3 & D4).
      assert (G4 : r_off (fill need0 d n s1) = off /\ r_size (fill need0 d n s1) = r_size s1 + n) by (split; [exact S1|reflexivity]).
      destruct G4 as [G4 G5]. split.
      * constructor; cbn [fetched lastoff ended failed c_need c_ans c_res c_off]; try assumption; try lia.
        -- cbn [fill r_eof]. rewrite <- A6. reflexivity.
        -- cbn [fill r_eof r_off r_size]. intros X. apply Nat.ltb_lt in X. rewrite Nat.add_assoc. apply D4, X.
        -- cbn [fill r_err]. rewrite S5, A8, ?Z0. reflexivity.
      * destruct (serve_ok F (fill need0 d n s1) size G1 G2 G3) as (m & l & E1 & E2 & E3).
        { rewrite G4, G5. intros X. assert (n < need0) by (unfold need0; lia). specialize (D4 H). lia. }
        rewrite E1. rewrite G4 in E3. repeat split; try assumption; lia.
  - injection R as <- <- <-. assert (FU : r_size s1 < size -> r_off s1 + r_size s1 = length F).
    { intros X. unfold wants in W. rewrite S4 in W. destruct (r_eof s) eqn:EO; [rewrite S2; apply A7; reflexivity|]. cbn [negb andb] in W.
      destruct (Nat.ltb_spec (r_off s1 + r_size s1) (off + size)); [discriminate W|lia]. }
    destruct (serve_ok F s1 size S3 ltac:(lia) S6 FU) as (m & l & E1 & E2 & E3). rewrite E1. split.
    + constructor; cbn [fetched lastoff ended failed c_need c_ans c_res c_off]; rewrite ?Bool.orb_false_r, ?Nat.add_0_r; try assumption; try lia.
      * rewrite S4. exact A6.
      * rewrite S4. intros X. rewrite S2. exact (A7 X).
      * rewrite A8, S5, ?Z0. reflexivity.
    + rewrite S1 in E3. repeat split; try assumption; lia.
Qed.
Lemma reads_inv F s h : reads F s h -> rinv F s h.
Proof. induction 1 as [|s h off size a s' need r R IH E D]; [apply rinv0|]. exact (proj1 (read_inv F s h off size a s' need r IH E D)). Qed.

(** the writing adaptor *)
Lemma place_app l1 l2 o : place o (l1 ++ l2) = place o l1 ++ place (o + length l1) l2.
Proof.
  revert o. induction l1 as [|x t IH]; intros o; cbn; [rewrite Nat.add_0_r; reflexivity|]. rewrite IH. do 3 f_equal. lia.
Qed.
Record winv (s : wr) (h : list wcall) : Prop := mkWI {
  wi_pos : w_err s = 0 -> w_pos s = w_off s /\ w_off s + length (w_buf s) = wend h;
  wi_acc : w_err s = 0 -> w_dev s ++ place (w_off s) (w_buf s) = accepted h;
  wi_pre : exists rest, accepted h = w_dev s ++ rest;
  wi_err : w_err s <> 0 -> w_buf s <> [] }.
Lemma winv0 : winv wr0 [].
Proof. constructor; try reflexivity; [intros _; split; reflexivity|exists []; reflexivity|intros X; contradiction X; reflexivity]. Qed.

Lemma write_inv s h off d a s' r : winv s h -> write off d a s = (s', r) -> (wend h < off -> wclose s = true) -> winv s' (mkWC off d a r :: h).
Proof.
  intros [P A PR ER] W C. unfold write in W. destruct (Nat.eqb_spec (w_err s) 0) as [Z0|NZ]; cbn [negb] in W.
  2:{ injection W as <- <-. constructor; cbn [wend accepted k_res]; rewrite ?app_nil_r; try (intros X; contradiction); assumption. }
  destruct (P Z0) as [P1 P2]. specialize (A Z0). destruct (Nat.ltb_spec off (w_off s + length (w_buf s))) as [LT|GE].
  { injection W as <- <-. constructor; cbn [wend accepted k_res]; rewrite ?app_nil_r; try assumption; intros _; exact A. }
  set (s1 := if Nat.ltb (w_off s + length (w_buf s)) off then seek off s else s) in *.
  assert (Q : w_pos s1 = w_off s1 /\ w_off s1 + length (w_buf s1) = off /\ w_dev s1 ++ place (w_off s1) (w_buf s1) = accepted h /\ w_err s1 = 0).
  { unfold s1. destruct (Nat.ltb_spec (w_off s + length (w_buf s)) off) as [L2|L2]; [|split; [exact P1|split; [lia|split; [exact A|exact Z0]]]].
    specialize (C ltac:(lia)). unfold wclose in C. destruct (w_buf s) eqn:EB; [|discriminate C]. cbn. rewrite EB. cbn. split; [reflexivity|]. split; [lia|]. split; [exact A|exact Z0]. }
  destruct Q as (Q1 & Q2 & Q3 & Q4). clearbody s1. destruct (w_buf s1 ++ d) as [|x t] eqn:EB.
  - injection W as <- <-. apply app_eq_nil in EB. destruct EB as [E1 ->]. cbn [length]. constructor; cbn [wend accepted k_res k_off k_data place length].
    + intros _. split; [exact Q1|rewrite Q2; lia].
    + intros _. rewrite Q3, app_nil_r. reflexivity.
    + exists []. rewrite E1 in Q3. cbn in Q3. rewrite !app_nil_r in *. symmetry. exact Q3.
    + intros X. contradiction.
  - rewrite <- EB in W. destruct a as [e|n]; injection W as <- <-.
    + constructor; cbn [w_err w_buf w_dev wend accepted k_res]; try (intros X; exfalso; exact (errno_nz e X)).
      * exists (place (w_off s1) (w_buf s1)). rewrite app_nil_r. symmetry. exact Q3.
      * intros _. rewrite EB. discriminate.
    + assert (SP : place (w_pos s1) (firstn n (w_buf s1 ++ d)) ++ place (w_off s1 + min n (length (w_buf s1 ++ d))) (skipn n (w_buf s1 ++ d)) = place (w_off s1) (w_buf s1 ++ d)).
      { rewrite <- (firstn_skipn n (w_buf s1 ++ d)) at 4. rewrite place_app, firstn_length, Q1. reflexivity. }
      constructor; cbn [w_err w_buf w_dev w_pos w_off wend accepted k_res k_off k_data].
      * intros _. split; [lia|]. rewrite skipn_length, app_length. lia.
      * intros _. rewrite <- app_assoc, SP, place_app, app_assoc, Q3, Q2. reflexivity.
      * exists (place (w_off s1 + min n (length (w_buf s1 ++ d))) (skipn n (w_buf s1 ++ d))). rewrite <- app_assoc, SP, place_app, app_assoc, Q3, Q2. reflexivity.
      * intros X. contradiction.
Qed.
Lemma calm_cons c h : calm (c :: h) -> calm h /\ forall s, writes s h -> wend h < k_off c -> wclose s = true.
Proof.
  intros C. split.
  - intros h1 c1 h2 s E. exact (C (c :: h1) c1 h2 s (f_equal (cons c) E)).
  - intros s. exact (C [] c h s eq_refl).
Qed.
Lemma writes_inv s h : writes s h -> calm h -> winv s h.
Proof.
  induction 1 as [|s h off d a s' r W IH E]; intros C; [apply winv0|]. apply calm_cons in C. destruct C as [C1 C2].
  exact (write_inv s h off d a s' r (IH C1) E (fun X => C2 s W X)).
Qed.
Lemma writes_det s h : writes s h -> forall s2, writes s2 h -> s2 = s.
Proof.
  induction 1 as [|s h off d a s' r W IH E]; intros s2 W2; inversion W2 as [|t h2 o2 d2 a2 t' r2 V2 E2]; subst; [reflexivity|].
  rewrite (IH _ V2) in E2. rewrite E in E2. injection E2 as E2. congruence.
Qed.
Lemma takes_cons c h : takes_all (c :: h) -> takes_all h /\ forall s, writes s h -> exists n, k_ans c = WOk n /\ length (w_buf s) + length (k_data c) <= n.
Proof.
  intros C. split.
  - intros h1 c1 h2 s E. exact (C (c :: h1) c1 h2 s (f_equal (cons c) E)).
  - intros s. exact (C [] c h s eq_refl).
Qed.
Lemma takes_all_empty s h : writes s h -> takes_all h -> w_buf s = [] /\ w_err s = 0.
Proof.
  induction 1 as [|s h off d a s' r W IH E]; intros T; [split; reflexivity|]. apply takes_cons in T. destruct T as [T1 T2].
  destruct (IH T1) as [B0 E0]. destruct (T2 s W) as (n & EA & L). cbn [k_ans k_data] in *. subst a. rewrite B0 in L. cbn [length] in L.
  unfold write in E. rewrite E0, B0 in E. cbn [Nat.eqb negb length] in E. destruct (off <? w_off s + 0); [injection E as <- _; split; assumption|].
  set (s1 := if w_off s + 0 <? off then seek off s else s) in *.
  assert (Q : w_buf s1 = [] /\ w_err s1 = 0) by (unfold s1; destruct (w_off s + 0 <? off); split; assumption). destruct Q as [Q1 Q2]. clearbody s1.
  rewrite Q1 in E. cbn [app] in E. destruct d as [|x t] eqn:ED; [injection E as <- _; split; assumption|]. rewrite <- ED in *.
  injection E as <- _. cbn [w_buf w_err]. split; [apply skipn_all2; lia|exact Q2].
Qed.
Lemma takes_all_calm h : takes_all h -> calm h.
Proof.
  intros T h1 c h2 s E W _. assert (T2 : takes_all h2).
  { intros g1 c1 g2 s1 E1. apply (T (h1 ++ c :: g1)). rewrite E, E1. rewrite <- app_assoc. reflexivity. }
  destruct (takes_all_empty s h2 W T2) as [B _]. unfold wclose. rewrite B. reflexivity.
Qed.
