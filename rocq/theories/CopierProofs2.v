(** Proofs about copying files: the session. *)
From Verif Require Import Base MetaFile SegCodec Copier CopierSpec CopierProofs.

Ltac xproj := cbn [x_name x_file x_off x_count x_partly x_retry x_fin x_st x_dest x_ph x_bad set_st set_count set_retry set_ph set_dest finish] in *.

(** * What the server answers *)
Lemma eqb_list_eq : forall a b, eqb_list a b = true -> a = b.
Proof.
  induction a as [|x a IH]; intros [|y b] E; cbn in E; try discriminate; [reflexivity|].
  apply andb_true_iff in E. destruct E as [E1 E2]. apply Z.eqb_eq in E1. f_equal; auto.
Qed.
(** LocalDirReader: an answer holds the bytes at the offset, and tells whether the file ends there *)
Lemma dread_ok : forall bytes name off mx i l l' data eof, 0 <= off <= zlen bytes -> 0 < mx ->
  dread bytes name off mx i l = (l', ROk data eof) ->
  data = take mx (drop off bytes) /\ (eof = true <-> off + zlen data = zlen bytes) /\ (eof = false -> zlen data = mx).
Proof.
  intros bytes name off mx i l l' data eof O M D. unfold dread in D.
  destruct (l_reading l); [discriminate|].
  set (same := match l_cur l with Some c => c =? name | None => false end) in *.
  destruct (negb same && (negb (l_eof l) || negb (off =? 0))); [discriminate|].
  assert (TD : zlen (take mx (drop off bytes)) = Z.min mx (zlen bytes - off)).
  { pose proof (zlen_drop off bytes O) as ZD. unfold take, zlen in *. rewrite firstn_length. lia. }
  assert (K : (let data := take mx (drop off bytes) in
     if zlen data <? mx then (mkL false (Some name) true, ROk data true)
     else match i with
          | IoSize => (mkL true (Some name) (if same then l_eof l else false), RErr C_EIO)
          | _ => let eof := zlen bytes =? off + mx in (mkL false (Some name) eof, ROk data eof)
          end) = (l', ROk data eof) ->
     data = take mx (drop off bytes) /\ (eof = true <-> off + zlen data = zlen bytes) /\ (eof = false -> zlen data = mx)).
  { cbv zeta. clear D. intros D. destruct (Z.ltb_spec (zlen (take mx (drop off bytes))) mx).
    - injection D as <- <- <-. rewrite TD in *. sp; auto; [|discriminate]. split; [lia|reflexivity].
    - assert (D' : (mkL false (Some name) (zlen bytes =? off + mx), ROk (take mx (drop off bytes)) (zlen bytes =? off + mx)) = (l', ROk data eof))
        by (destruct i; [exact D|exact D|exact D|discriminate]).
      injection D' as <- <- <-. rewrite TD in *. sp; auto; [|lia]. rewrite Z.eqb_eq. lia. }
  destruct i; destruct same; try discriminate; apply K; exact D.
Qed.

Lemma get_file_ok : forall hole files name off count thr partly i blocks l l' eof n att,
  sizes (mkCfg 1 hole 0) files -> 0 <= off -> 0 <= thr <= count -> count < 4294967296 ->
  (forall b, files name = Some b -> off <= zlen b) -> (name = META -> off = 0) ->
  get_file hole files name off count thr partly i blocks l = Some (l', GOk eof n att) ->
  exists src, files name = Some src /\ nonil blocks = true /\ n = zlen (concat blocks) /\ att = attachment hole off blocks /\
    take off src ++ concat blocks = take (off + n) src /\ off + n <= zlen src /\ n < 4294967296 /\
    (eof = true -> off + n = zlen src) /\ (eof = false -> name <> META /\ 0 < n /\ (partly = false -> n = count)).
Proof.
  intros hole files name off count thr partly i blocks l l' eof n att [_ SZ] O T C OB MO G. unfold get_file in G.
  destruct ((count <=? 0) || (off <? 0)) eqn:E0; [discriminate|]. apply orb_false_iff in E0. destruct E0 as [E0 _]. apply Z.leb_gt in E0.
  unfold sread in G. destruct (Z.eqb_spec name META) as [->|NM].
  - destruct (files META) as [b|] eqn:FM; [|discriminate].
    destruct (nonil blocks && eqb_list (concat blocks) b) eqn:E1; [|discriminate]. apply andb_true_iff in E1. destruct E1 as [NN EQ]. apply eqb_list_eq in EQ.
    injection G as <- <- <- <-. rewrite (MO eq_refl). destruct (SZ _ _ FM) as [S1 S2]. specialize (S2 eq_refl).
    exists b. rewrite EQ. sp; auto; try lia. unfold take at 1. cbn [Z.to_nat firstn app]. rewrite take_all by lia. reflexivity.
  - destruct (files name) as [b|] eqn:FM; [|discriminate].
    destruct ((thr <? count) && (negb partly || (thr =? 0))) eqn:E1; [discriminate|].
    destruct (dread b name off thr i l) as [l2 [c|data e2]] eqn:D; [destruct (c =? 0); discriminate|].
    destruct (nonil blocks && eqb_list (concat blocks) data) eqn:E2; [|discriminate]. apply andb_true_iff in E2. destruct E2 as [NN EQ]. apply eqb_list_eq in EQ.
    injection G as <- <- <- <-. specialize (OB _ eq_refl). destruct (SZ _ _ FM) as [S1 _].
    assert (T0 : 0 < thr).
    { apply andb_false_iff in E1. destruct E1 as [E1|E1]; [apply Z.ltb_ge in E1; lia|].
      apply orb_false_iff in E1. destruct E1 as [_ E1]. apply Z.eqb_neq in E1. lia. }
    destruct (dread_ok b name off thr i l l2 data e2 ltac:(lia) T0 D) as (DT & DE & DN).
    assert (TD : zlen data = Z.min thr (zlen b - off)).
    { rewrite DT. pose proof (zlen_drop off b ltac:(lia)) as ZD. unfold take, zlen in *. rewrite firstn_length. lia. }
    exists b. rewrite EQ. sp; auto; try lia.
    + rewrite DT at 1. rewrite take_take_drop by lia. destruct (Z.le_gt_cases thr (zlen b - off)).
      * f_equal. lia.
      * rewrite !take_all by lia. reflexivity.
    + apply DE.
    + intros E. specialize (DN E). sp; auto; [lia|]. intros ->. cbn [negb orb andb] in E1. rewrite andb_true_r in E1. apply Z.ltb_ge in E1. lia.
Qed.

(** * The invariant of a session *)
Definition pos (s : sess) : Z := match x_ph s with PRpc => x_off s | _ => x_off s + x_count s end.
Definition got (hole : bool) (files : Z -> option (list Z)) (s : sess) (p : Z) (src : list Z) : Prop :=
  files (x_name s) = Some src /\ p <= zlen src /\ zlen (x_dest s) <= p /\ padded (x_dest s) p = take p src /\ (hole = false -> zlen (x_dest s) = p).
Record SI (hole : bool) (files : Z -> option (list Z)) (b : bool) (s : sess) : Prop := {
  si_bad : x_bad s = false;
  si_run : x_fin s = false -> x_st s = 0 /\ 0 <= pos s /\ (x_name s = META -> pos s = 0) /\
     (pos s = 0 /\ x_dest s = [] \/ exists src, got hole files s (pos s) src) /\
     (x_ph s = PRpc -> 0 < x_count s < 4294967296 /\ x_partly s = b);
  si_fin : x_fin s = true -> x_st s = 0 -> exists src, got hole files s (zlen src) src }.

Lemma si_start : forall hole files b name file, SI hole files b (start name file).
Proof. intros. constructor; cbn; auto; [|discriminate]. intros _. sp; auto; [lia|discriminate]. Qed.

Lemma si_send : forall hole files b g thr s s', 1 <= g_max g < 2147483648 -> x_fin s = false -> x_ph s = PReady ->
  SI hole files b s -> send g b thr s = Some s' -> SI hole files b s'.
Proof.
  intros hole files b g thr s s' G F P I E. destruct (si_run _ _ _ _ I F) as (ST & P0 & M & D & _).
  unfold send in E. destruct ((thr <? 0) || _ || _) eqn:E1; [discriminate|]. injection E as <-.
  apply orb_false_iff in E1. destruct E1 as [E1 E2]. apply orb_false_iff in E1. destruct E1 as [E1 E3]. apply Z.ltb_ge in E1, E3.
  assert (TB : thr < 4294967296) by (destruct (x_file s); lia).
  unfold pos in *. rewrite P in *. constructor; xproj.
  - apply (si_bad _ _ _ _ I).
  - intros _. unfold pos. xproj. destruct (Z.eqb_spec thr 0) as [->|N].
    + rewrite Z.add_0_r. sp; auto; try discriminate.
    + sp; auto; try (intros; lia). intros _. sp; auto; lia.
  - intros. congruence.
Qed.

Lemma si_failed : forall hole files b g code sy s, x_fin s = false -> x_ph s = PRpc -> code <> 0 -> SI hole files b s -> SI hole files b (failed g code sy s).
Proof.
  intros hole files b g code sy s F P C I. destruct (si_run _ _ _ _ I F) as (ST & P0 & M & D & _). pose proof (si_bad _ _ _ _ I) as B.
  unfold pos in *. rewrite P in *.
  assert (FIN : forall s0, x_bad s0 = false -> x_st s0 = code -> SI hole files b (finish sy s0)).
  { intros s0 B0 S0. constructor; xproj; auto; [discriminate|]. intros _ Z0. exfalso. rewrite S0 in Z0. destruct (x_file s0 && negb sy); [discriminate|congruence]. }
  unfold failed. destruct (code =? C_ECANCELED); [apply FIN; auto|].
  destruct (negb (code =? C_EAGAIN) && _); [apply FIN; destruct (code =? C_EAGAIN); auto|].
  assert (R : SI hole files b (set_ph PTimer (set_count 0 s)) /\ SI hole files b (set_ph PTimer (set_retry (x_retry (set_count 0 s) + 1) (set_count 0 s)))).
  { split; (constructor; xproj; auto; [|intros; congruence]; intros _; unfold pos; xproj; rewrite Z.add_0_r; sp; auto; discriminate). }
  destruct R. destruct (code =? C_EAGAIN); auto.
Qed.

Lemma si_fin_bad : forall hole files b sy code s, x_bad s = false -> code <> 0 -> SI hole files b (finish sy (set_st code s)).
Proof.
  intros. constructor; xproj; auto; [discriminate|]. intros _ Z0. destruct (x_file s && negb sy); [discriminate|congruence].
Qed.

Lemma si_succ : forall hole files b w sy eof n att s src l, x_fin s = false -> x_ph s = PRpc -> SI hole files b s ->
  files (x_name s) = Some src -> segs att = l -> fits (x_dest s) l ->
  x_off s + n <= zlen src -> zlen (put l (x_dest s)) <= x_off s + n ->
  padded (put l (x_dest s)) (x_off s + n) = take (x_off s + n) src -> 0 <= n ->
  (hole = false -> zlen (put l (x_dest s)) = x_off s + n) ->
  (eof = true -> x_off s + n = zlen src) -> (eof = false -> x_name s <> META /\ 0 < n /\ (b = false -> n = x_count s)) ->
  SI hole files b (succeeded b w sy eof n att s).
Proof.
  intros hole files b w sy eof n att s src l F P I FS SG FT LE ZL PD N0 HO EO NE.
  destruct (si_run _ _ _ _ I F) as (ST & P0 & M & D & _). pose proof (si_bad _ _ _ _ I) as B.
  unfold succeeded. rewrite SG. cbv zeta.
  set (s1 := if negb (n =? 0) && b then set_count n (set_retry 0 s) else set_retry 0 s).
  assert (S1 : x_name s1 = x_name s /\ x_file s1 = x_file s /\ x_off s1 = x_off s /\ x_dest s1 = x_dest s /\ x_bad s1 = false /\ x_st s1 = 0 /\ x_fin s1 = false /\ x_ph s1 = PRpc).
  { unfold s1. destruct (negb (n =? 0) && b); xproj; sp; auto. }
  destruct S1 as (N1 & F1 & O1 & D1 & B1 & T1 & FF & P1).
  assert (CN : eof = false -> x_off s1 + x_count s1 = x_off s + n).
  { intros E. destruct (NE E) as (NM & NP & NB). rewrite O1. f_equal. unfold s1. destruct (Z.eqb_spec n 0); [lia|]. cbn [negb andb].
    destruct b; xproj; [reflexivity|symmetry; auto]. }
  assert (DONE : forall f, f = put l (x_dest s) -> SI hole files b (if eof then finish sy (set_dest f (x_bad s1) s1) else set_ph PReady (set_dest f (x_bad s1) s1))).
  { intros f ->. destruct eof.
    - constructor; xproj; auto; [discriminate|]. intros _ _. exists src. unfold got. xproj. rewrite N1, <- EO by auto. sp; auto. rewrite EO by auto. lia.
    - constructor; xproj; auto; [|rewrite FF; discriminate]. intros _. unfold pos. xproj. rewrite CN by auto. destruct (NE eq_refl) as (NM & NP & NB).
      pose proof P0 as P0'. unfold pos in P0'. rewrite P in P0'.
      sp; [exact T1|lia|intros; congruence| |discriminate].
      right. exists src. unfold got. xproj. rewrite N1. sp; auto. }
  rewrite F1. destruct (x_file s) eqn:FL.
  - rewrite D1. destruct (put_file w (x_dest s) l) as [f ok] eqn:PF. destruct ok; cbn [negb].
    + apply DONE. eapply put_file_put; eauto.
    + apply si_fin_bad; [exact B1|discriminate].
  - rewrite D1, put_buf_put by auto. apply DONE. reflexivity.
Qed.

(** one event *)
Definition flag_evt (b : bool) (e : xevt) : Prop := match e with EvSend f _ => f = b | EvRpc _ _ _ f _ _ => f = b | _ => True end.
Lemma get_file_err : forall hole files name off count thr partly i blocks l l' c,
  get_file hole files name off count thr partly i blocks l = Some (l', GErr c) -> c <> 0.
Proof.
  intros hole files name off count thr partly i blocks l l' c G. unfold get_file in G.
  destruct ((count <=? 0) || (off <? 0)); [injection G as <- <-; discriminate|].
  destruct (sread files name off count thr partly i l) as [l2 [c2|data e2]].
  - destruct (Z.eqb_spec c2 0); [discriminate|]. injection G as <- <-. assumption.
  - destruct (nonil blocks && _); discriminate.
Qed.

Lemma si_step : forall g files b s l e s' l', sizes g files -> flag_evt b e -> SI (g_hole g) files b s ->
  xstep g files (s, l) e = Some (s', l') -> SI (g_hole g) files b s'.
Proof.
  intros g files b s l e s' l' [GM SZ] FE I X. unfold xstep in X.
  destruct (x_fin s) eqn:F; [injection X as <- <-; exact I|].
  pose proof (si_bad _ _ _ _ I) as B. destruct (si_run _ _ _ _ I F) as (ST & P0 & M & D & RP).
  assert (CAN : forall sy, SI (g_hole g) files b (finish sy (set_st C_ECANCELED s))) by (intros; apply si_fin_bad; auto; discriminate).
  destruct (x_ph s) eqn:P; destruct e as [flag thr| |code sy|thr i blocks code sy|thr i blocks flag w sy|sy|lo]; try discriminate;
    try (injection X as <- <-; apply CAN); try (injection X as <- <-; exact I).
  - cbn in FE. subst flag. destruct (send g b thr s) eqn:S; [|discriminate]. injection X as <- <-. eapply si_send; eauto.
  - destruct (Z.eqb_spec code 0); [discriminate|]. injection X as <- <-. apply si_failed; auto.
  - destruct ((thr <? 0) || (x_count s <? thr) || (code =? 0)) eqn:E; [discriminate|]. apply orb_false_iff in E. destruct E as [_ E]. apply Z.eqb_neq in E.
    destruct (get_file _ _ _ _ _ _ _ _ _ _) as [[l2 r]|]; [|discriminate]. injection X as <- <-. apply si_failed; auto.
  - cbn in FE. subst flag. destruct ((thr <? 0) || (x_count s <? thr)) eqn:E; [discriminate|]. apply orb_false_iff in E. destruct E as [E1 E2]. apply Z.ltb_ge in E1, E2.
    destruct (get_file _ _ _ _ _ _ _ _ _ _) as [[l2 [c|eof n att]]|] eqn:G; [| |discriminate]; injection X as <- <-.
    + apply si_failed; auto. eapply get_file_err; eauto.
    + destruct (RP eq_refl) as [CB PB]. unfold pos in *. rewrite P in *.
      destruct (get_file_ok (g_hole g) files (x_name s) (x_off s) (x_count s) thr (x_partly s) i blocks l l2 eof n att) as (src & FS & NN & NC & AT & TK & LE & NB & EO & NE); auto; try lia.
      { split; [cbn; lia|exact SZ]. }
      { intros bb FB. destruct D as [[-> _]|(src & FS & LE & _)]; [apply zlen_nn|]. congruence. }
      destruct (SZ _ _ FS) as [S1 _]. pose proof (zlen_nn src).
      assert (Z0 : zlen (x_dest s) <= x_off s) by (destruct D as [[-> ->]|(src' & _ & _ & Q & _)]; [change (zlen (@nil Z)) with 0; lia|exact Q]).
      assert (PT : padded (x_dest s) (x_off s) = take (x_off s) src).
      { destruct D as [[-> ->]|(src' & FS' & _ & _ & Q & _)]; [reflexivity|]. rewrite Q. congruence. }
      assert (HF : g_hole g = false -> zlen (x_dest s) = x_off s).
      { destruct D as [[-> ->]|(src' & _ & _ & _ & _ & Q)]; [reflexivity|exact Q]. }
      destruct (attachment_ok (g_hole g) (x_off s) blocks (x_dest s)) as (sl & SG & FT & ZL & PD & HE); auto; try lia.
      apply (si_succ _ _ _ _ _ _ _ _ _ src sl); auto; try (rewrite NC; auto; fail); try lia.
      * rewrite AT. exact SG.
      * rewrite NC, PD, PT, TK, NC. reflexivity.
      * rewrite NC. apply zlen_nn.
      * intros E. destruct (NE E) as (Q1 & Q2 & Q3). sp; auto. intros ->. apply Q3. congruence.
  - injection X as <- <-. constructor; xproj; auto; [|intros; congruence]. intros _. unfold pos in *. xproj. rewrite P in *. sp; auto. discriminate.
Qed.
Lemma si_xrun : forall g files b es s l s' l', sizes g files -> flag_is b es -> SI (g_hole g) files b s ->
  xrun g files (s, l) es = Some (s', l') -> SI (g_hole g) files b s'.
Proof.
  intros g files b es. induction es as [|e es IH]; intros s l s' l' SZ FI I X; cbn [xrun] in X.
  - injection X as <- <-. exact I.
  - destruct (xstep g files (s, l) e) as [[s1 l1]|] eqn:E; [|discriminate]. apply (IH s1 l1 s' l'); auto.
    + intros e' H. apply FI. now right.
    + eapply si_step; eauto. apply (FI e). now left.
Qed.
Lemma name_step : forall g files s l e s' l', xstep g files (s, l) e = Some (s', l') -> x_name s' = x_name s /\ x_file s' = x_file s.
Proof.
  intros g files s l e s' l' X. unfold xstep in X. destruct (x_fin s); [injection X as <- <-; auto|].
  assert (FA : forall c sy, x_name (failed g c sy s) = x_name s /\ x_file (failed g c sy s) = x_file s).
  { intros. unfold failed. destruct (c =? C_ECANCELED); [auto|]. destruct (negb (c =? C_EAGAIN) && _); destruct (c =? C_EAGAIN); auto. }
  assert (SU : forall f w sy eof n att, x_name (succeeded f w sy eof n att s) = x_name s /\ x_file (succeeded f w sy eof n att s) = x_file s).
  { intros. unfold succeeded. cbv zeta. destruct (negb (n =? 0) && f); xproj; destruct (x_file s) eqn:Q;
      try destruct (put_file w (x_dest s) (segs att)) as [? []]; try destruct (put_buf _ _ _); destruct eof; xproj; auto. }
  destruct (x_ph s); destruct e as [flag thr| |code sy|thr i blocks code sy|thr i blocks flag w sy|sy|lo]; try discriminate;
    try (injection X as <- <-; auto; fail).
  - unfold send in X. destruct (_ || _ || _); [discriminate|]. injection X as <- <-. auto.
  - destruct (code =? 0); [discriminate|]. injection X as <- <-. auto.
  - destruct (_ || _ || _); [discriminate|]. destruct (get_file _ _ _ _ _ _ _ _ _ _) as [[? ?]|]; [|discriminate]. injection X as <- <-. auto.
  - destruct (_ || _); [discriminate|]. destruct (get_file _ _ _ _ _ _ _ _ _ _) as [[? []]|]; [| |discriminate]; injection X as <- <-; auto.
Qed.
Lemma name_run : forall g files es s l s' l', xrun g files (s, l) es = Some (s', l') -> x_name s' = x_name s /\ x_file s' = x_file s.
Proof.
  induction es as [|e es IH]; intros s l s' l' X; cbn [xrun] in X; [injection X as <- <-; auto|].
  destruct (xstep g files (s, l) e) as [[s1 l1]|] eqn:E; [|discriminate].
  apply IH in X. apply name_step in E. destruct X, E. split; congruence.
Qed.

Lemma retry_run : forall g files es s l s' l', 0 <= g_retry g -> unreachable es -> x_st s = 0 -> x_fin s = false -> x_retry s <= g_retry g ->
  xrun g files (s, l) es = Some (s', l') ->
  (x_retry s + failures es <= g_retry g -> x_fin s' = false /\ x_retry s' = x_retry s + failures es) /\
  (g_retry g < x_retry s + failures es -> x_fin s' = true /\ x_st s' <> 0).
Proof.
  intros g files es. induction es as [|e es IH]; intros s l s' l' G U ST F R X.
  - cbn [xrun] in X. injection X as <- <-. unfold failures. cbn [filter]. change (zlen (@nil xevt)) with 0. split; intros; [split; auto; lia|lia].
  - cbn [xrun] in X. destruct (xstep g files (s, l) e) as [[s1 l1]|] eqn:E; [|discriminate].
    assert (U' : unreachable es) by (intros e' H; apply U; now right).
    assert (UE := U e (or_introl eq_refl)).
    assert (FIN : forall es s l s' l', x_fin s = true -> xrun g files (s, l) es = Some (s', l') -> s' = s).
    { clear. induction es as [|e es IH]; intros s l s' l' F X; cbn [xrun] in X; [congruence|].
      unfold xstep in X. rewrite F in X. eauto. }
    unfold xstep in E. rewrite F in E.
    assert (SAME : x_st s1 = 0 /\ x_fin s1 = false /\ x_retry s1 = x_retry s -> failures (e :: es) = failures es ->
      (x_retry s + failures (e :: es) <= g_retry g -> x_fin s' = false /\ x_retry s' = x_retry s + failures (e :: es)) /\
      (g_retry g < x_retry s + failures (e :: es) -> x_fin s' = true /\ x_st s' <> 0)).
    { intros (Q1 & Q2 & Q3) Q4. rewrite Q4, <- Q3. apply (IH s1 l1 s' l'); auto. lia. }
    destruct e as [flag thr| |code sy|? ? ? ? ?|? ? ? ? ? ?|?|?]; try (destruct UE; fail).
    + destruct (x_ph s); try discriminate. destruct (send g flag thr s) eqn:S; [|discriminate]. injection E as -> ->.
      unfold send in S. destruct (_ || _ || _); [discriminate|]. injection S as <-. apply SAME; xproj; auto.
    + destruct (x_ph s); try discriminate. injection E as <- <-. apply SAME; xproj; auto.
    + destruct (x_ph s); try discriminate. destruct (Z.eqb_spec code 0) as [|C0]; [discriminate|]. injection E as <- <-.
      unfold failed in *. destruct (Z.eqb_spec code C_ECANCELED) as [|NC]; [congruence|].
      destruct (Z.eqb_spec code C_EAGAIN) as [EA|NA]; cbn [negb andb] in *.
      * apply SAME; xproj; auto. unfold failures. cbn [filter]. subst code. reflexivity.
      * assert (FL : failures (EvNet code sy :: es) = 1 + failures es).
        { unfold failures. cbn [filter]. destruct (Z.eqb_spec code C_EAGAIN); [contradiction|]. cbn [negb]. unfold zlen. cbn [length]. lia. }
        rewrite FL. assert (0 <= failures es) by (unfold failures, zlen; lia).
        destruct (Z.leb_spec (g_retry g) (x_retry (set_count 0 s))) as [LE|GT]; xproj.
        -- apply FIN in X; [|reflexivity]. subst s'. xproj. split; [lia|]. intros _. split; auto. destruct (x_file s && negb sy); [discriminate|auto].
        -- apply (IH _ _ _ _ G U') in X; auto; [|xproj; lia]. xproj. replace (x_retry s + (1 + failures es)) with (x_retry s + 1 + failures es) by lia. exact X.
Qed.

Lemma progress_step : forall g files b s l thr i blocks w sy s' l', sizes g files -> SI (g_hole g) files b s ->
  x_fin s = false -> x_ph s = PRpc -> xstep g files (s, l) (EvRpc thr i blocks b w sy) = Some (s', l') -> x_fin s' = false -> x_ph s' = PReady ->
  exists src, files (x_name s) = Some src /\ x_off s < x_off s' + x_count s' <= zlen src.
Proof.
  intros g files b s l thr i blocks w sy s' l' [GM SZ] I F P X F' P'.
  destruct (si_run _ _ _ _ I F) as (ST & P0 & M & D & RP). destruct (RP P) as [CB PB]. unfold pos in *. rewrite P in *.
  unfold xstep in X. rewrite F, P in X.
  destruct ((thr <? 0) || (x_count s <? thr)) eqn:E; [discriminate|]. apply orb_false_iff in E. destruct E as [E1 E2]. apply Z.ltb_ge in E1, E2.
  destruct (get_file _ _ _ _ _ _ _ _ _ _) as [[l2 [c|eof n att]]|] eqn:G; [| |discriminate]; injection X as <- <-.
  - exfalso. unfold failed in *. destruct (c =? C_ECANCELED); [discriminate|]. destruct (negb (c =? C_EAGAIN) && _); [discriminate|].
    destruct (c =? C_EAGAIN); discriminate.
  - destruct (get_file_ok (g_hole g) files (x_name s) (x_off s) (x_count s) thr (x_partly s) i blocks l l2 eof n att) as (src & FS & NN & NC & AT & TK & LE & NB & EO & NE); auto; try lia.
    { split; [cbn; lia|exact SZ]. }
    { intros bb FB. destruct D as [[-> _]|(src & FS & LE & _)]; [apply zlen_nn|]. congruence. }
    exists src. split; auto.
    assert (EF : eof = false).
    { destruct eof; auto. exfalso. unfold succeeded in F'. cbv zeta in F'. destruct (x_file _); [destruct (put_file _ _ _) as [? []]|destruct (put_buf _ _ _)]; discriminate. }
    destruct (NE EF) as (_ & NP & NQ).
    assert (Q : x_off (succeeded b w sy eof n att s) = x_off s /\ x_count (succeeded b w sy eof n att s) = n).
    { unfold succeeded. cbv zeta. destruct (Z.eqb_spec n 0); [lia|]. cbn [negb andb].
      destruct b; xproj; (destruct (x_file s); [destruct (put_file _ _ _) as [? []]|destruct (put_buf _ _ _)]); destruct eof; xproj; split; auto; symmetry; apply NQ; auto. }
    destruct Q as [-> ->]. lia.
Qed.

Lemma rpc_ready : forall g files s l thr i blocks flag w sy s' l', x_fin s = false ->
  xstep g files (s, l) (EvRpc thr i blocks flag w sy) = Some (s', l') -> x_fin s' = false -> x_ph s' = PReady -> x_retry s' = 0.
Proof.
  intros g files s l thr i blocks flag w sy s' l' F X F' P'. unfold xstep in X. rewrite F in X. destruct (x_ph s); try discriminate.
  destruct (_ || _); [discriminate|].
  destruct (get_file _ _ _ _ _ _ _ _ _ _) as [[l2 [c|eof n att]]|]; [| |discriminate]; injection X as <- <-.
  - exfalso. unfold failed in *. destruct (c =? C_ECANCELED); [discriminate|]. destruct (negb (c =? C_EAGAIN) && _); [discriminate|].
    destruct (c =? C_EAGAIN); discriminate.
  - unfold succeeded in *. cbv zeta in *. destruct (negb (n =? 0) && flag); xproj;
      (destruct (x_file s); [destruct (put_file _ _ _) as [? []]|destruct (put_buf _ _ _)]); destruct eof; xproj; try discriminate; reflexivity.
Qed.
Lemma sync_step : forall g files s l thr i blocks flag w s' l', x_fin s = false -> x_file s = true ->
  xstep g files (s, l) (EvRpc thr i blocks flag w false) = Some (s', l') -> x_fin s' = true -> x_st s' <> 0.
Proof.
  intros g files s l thr i blocks flag w s' l' F FL X F'. unfold xstep in X. rewrite F in X. destruct (x_ph s); try discriminate.
  destruct (_ || _); [discriminate|].
  destruct (get_file _ _ _ _ _ _ _ _ _ _) as [[l2 [c|eof n att]]|]; [| |discriminate]; injection X as <- <-.
  - unfold failed in *. destruct (c =? C_ECANCELED); [xproj; rewrite FL; discriminate|]. destruct (negb (c =? C_EAGAIN) && _); destruct (c =? C_EAGAIN); xproj; try rewrite FL; try discriminate; congruence.
  - unfold succeeded in *. cbv zeta in *. set (s1 := if negb (n =? 0) && flag then _ else _) in *.
    assert (FL1 : x_file s1 = true) by (unfold s1; destruct (negb (n =? 0) && flag); exact FL).
    assert (F1 : x_fin s1 = false) by (unfold s1; destruct (negb (n =? 0) && flag); exact F).
    clearbody s1. rewrite FL1 in F' |- *. destruct (put_file _ _ _) as [f ok]. destruct ok; cbn [negb] in *.
    + destruct eof; xproj; [rewrite FL1; discriminate|congruence].
    + xproj. rewrite FL1. discriminate.
Qed.
