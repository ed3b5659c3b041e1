(** * The whole copy *)
From Verif Require Import Base SnapCopy SnapCopySpec ReconfStatic SnapCopyProofs SnapCopyRun SnapCopyFrame.

Section M.
Variable truth : truth_fn.
Variable d0 : disk.
Notation Bs := (Bs truth d0).
Notation Wm := (Wm truth).

Definition NS (n : Z) (s : st) : Prop := tfile (s_d s) n = None \/ tfile (s_d s) n <> lfile (s_d s) n.

Lemma write_step : forall n b s, Bs s -> NS n s -> Bs (emit (EWrite n b) s) /\ NS n (emit (EWrite n b) s).
Proof.
  intros n b s HB HN. split; [apply Bs_emit; auto|]. right. cbn [emit s_d].
  rewrite tfile_apply, lfile_apply. destruct (tfile (s_d s) n) eqn:E.
  - destruct HN as [HN|HN]; congruence.
  - rewrite Z.eqb_refl. intros H. pose proof (wf_l _ (Bs_wf truth d0 s HB) n (k_next (s_d s))) as Hl.
    specialize (Hl (eq_sym H)). lia.
Qed.

Lemma writes_step : forall bs n s, Bs s -> NS n s ->
  Bs (emits (map (EWrite n) bs) s) /\ NS n (emits (map (EWrite n) bs) s).
Proof.
  induction bs as [|b bs IH]; intros n s HB HN; cbn [map emits]; auto.
  destruct (write_step n b s HB HN). apply IH; auto.
Qed.

Lemma W_writes : forall bs n s t, Bs s -> NS n s -> look n t = None -> W truth t (s_d s) ->
  W truth t (s_d (emits (map (EWrite n) bs) s)).
Proof.
  induction bs as [|b bs IH]; intros n s t HB HN Hl HW; cbn [map emits]; auto.
  destruct (write_step n b s HB HN) as (H1 & H2). apply IH; auto. cbn [emit s_d].
  apply W_apply; auto. { eapply Bs_wfT; eauto. } intros m Hm; congruence.
Qed.

Lemma tfile_writes : forall bs n s x, x <> n -> tfile (s_d (emits (map (EWrite n) bs) s)) x = tfile (s_d s) x.
Proof.
  induction bs as [|b bs IH]; intros n s x Hx; cbn [map emits]; auto. rewrite IH by auto.
  cbn [emit s_d]. rewrite tfile_apply. destruct (tfile (s_d s) n); auto.
  destruct (Z.eqb_spec n x); [congruence|auto].
Qed.

Lemma copy_file_Bs : forall o r n m s, Bs s -> Wm s -> Ab [] s ->
  (forall c, m_ck m = Some c -> r_data r n = truth n c) ->
  let s' := copy_file o r n m s in Bs s' /\ Wm s' /\ (s_ok s' = true -> Ab [] s').
Proof.
  intros o r n m s HB HW HA Hh s'. subst s'. unfold copy_file.
  destruct (look n (s_tab s)) as [y|] eqn:E; cbn [isS]; [sp; auto|].
  set (s1 := if o_mkdir o n then s else fail s).
  assert (B1 : Bs s1) by (unfold s1; destruct (o_mkdir o n); exact HB).
  assert (W1 : Wm s1) by (unfold s1; destruct (o_mkdir o n); exact HW).
  assert (T1 : s_tab s1 = s_tab s) by (unfold s1; destruct (o_mkdir o n); reflexivity).
  assert (A1 : Ab [] s1) by (unfold s1; destruct (o_mkdir o n); exact HA).
  clearbody s1. rewrite <- T1 in E. clear HB HW HA T1.
  assert (N1 : NS n s1). { left. destruct (A1 n E) as [?|[]]; auto. }
  destruct (o_sess o n); cbn [negb]; [|sp; auto; discriminate].
  destruct (writes_step ([] :: o_part o n) n s1 B1 N1) as (B2 & N2).
  pose proof (W_writes ([] :: o_part o n) n s1 (s_tab s1) B1 N1 E W1) as W2.
  pose proof (tab_emits (map (EWrite n) ([] :: o_part o n)) s1) as T2.
  pose proof (tfile_writes ([] :: o_part o n) n s1) as F2.
  set (s2 := emits (map (EWrite n) ([] :: o_part o n)) s1) in *. clearbody s2.
  destruct (o_fetch o n); cbn [negb].
  2:{ sp; try discriminate; [exact B2|]. unfold SnapCopyRun.Wm. cbn [fail s_tab s_d]. rewrite T2. exact W2. }
  destruct (write_step n (r_data r n) s2 B2 N2) as (B3 & N3).
  assert (W3 : W truth (s_tab s1) (s_d (emit (EWrite n (r_data r n)) s2))).
  { apply (W_writes [r_data r n] n s2); auto. }
  assert (C3 : tcont (s_d (emit (EWrite n (r_data r n)) s2)) n = Some (r_data r n)) by apply tcont_write.
  assert (F3 : forall x, x <> n -> tfile (s_d (emit (EWrite n (r_data r n)) s2)) x = tfile (s_d s1) x).
  { intros x Hx. pose proof (tfile_writes [r_data r n] n s2 x Hx) as Hq. cbn [map emits] in Hq. rewrite Hq. auto. }
  assert (T3 : s_tab (emit (EWrite n (r_data r n)) s2) = s_tab s1) by exact T2.
  set (s3 := emit (EWrite n (r_data r n)) s2) in *. clearbody s3.
  unfold add_file. rewrite T3, E. cbn [isS negb].
  set (s4 := set_tab ((n, m) :: s_tab s1) s3).
  assert (B4 : Bs s4) by exact B3.
  assert (W4 : Wm s4).
  { intros x y c Hx Hf Hc. unfold s4 in *. cbn [set_tab s_tab s_d] in *. rewrite look_cons in Hx.
    destruct (Z.eqb_spec n x) as [->|]; [|eapply W3; eauto]. injection Hx as <-. rewrite C3, (Hh c); auto. }
  assert (A4 : Ab [] s4).
  { intros x. unfold s4. cbn [set_tab s_tab s_d]. rewrite look_cons. destruct (Z.eqb_spec n x); [discriminate|].
    intros Hx. rewrite F3 by auto. auto. }
  clearbody s4. destruct (sync (o_sync3 o n) s4) as [s5 ok] eqn:E5.
  eapply sync_ok in E5; eauto. destruct E5 as (B5 & W5 & T5 & _ & _ & _ & F5 & _).
  assert (A5 : Ab [] s5) by (intros x Hx; rewrite F5; apply A4; congruence).
  destruct ok; sp; auto.
Qed.

Lemma copy_loop_Bs : forall o r l s, Bs s -> Wm s -> Ab [] s ->
  (forall n m, In (n, m) l -> forall c, m_ck m = Some c -> r_data r n = truth n c) ->
  let s' := copy_loop o r l s in Bs s' /\ Wm s'.
Proof.
  intros o r; induction l as [|(n, m) l IH]; intros s HB HW HA Hh; cbn [copy_loop]; [split; auto|].
  destruct (s_ok s) eqn:Eo; [|split; auto].
  destruct (copy_file_Bs o r n m s HB HW HA) as (B1 & W1 & A1). { apply Hh; left; auto. }
  destruct (s_ok (copy_file o r n m s)) eqn:E1.
  - apply IH; auto. intros x y Hx. apply Hh; right; auto.
  - destruct l as [|(n2, m2) l]; cbn [copy_loop]; [split; auto|]. rewrite E1. split; auto.
Qed.

Lemma close_Bs : forall keep os ore od s, Bs s -> (s_werr s = 0 -> Wm s) -> Bs (fst (close keep os ore od s)).
Proof.
  intros keep os ore od s HB HW. unfold close.
  destruct (Z.eqb_spec (s_werr s) 0) as [Hw|Hw]; cbn [negb].
  - specialize (HW Hw). destruct (sync os s) as [s1 ok] eqn:E1.
    pose proof E1 as E1'. eapply sync_ok in E1; eauto.
    destruct E1 as (B1 & W1 & T1 & I1 & _ & -> & _ & _ & K1 & Y1 & N1).
    assert (Hg : forall ret, Bs (if negb (ret =? 0) && negb keep then fst (destroy od s1) else s1)).
    { intros ret. destruct (negb (ret =? 0) && negb keep); auto. apply destroy_Bs; auto. }
    destruct os; cbn [negb fst]; [|apply Hg].
    destruct (s_idx s1 =? last_index (s_d s1)); [apply Hg|].
    destruct ore; [|apply Hg]. cbn [Z.eqb negb andb fst]. apply Bs_emit; auto. cbn [safe_eff].
    destruct (Y1 eq_refl) as (_ & M1). unfold table_of. rewrite M1, <- T1. exact W1.
  - cbn [fst]. destruct (negb (s_werr s =? 0) && negb keep); auto. apply destroy_Bs; auto.
Qed.

Lemma filter_step_Bs : forall o flt r s s' w, filter_step o flt r s = (s', w) ->
  deletes_ok o -> NoDup (map fst (r_tab r)) -> Bs s ->
  W truth (table_of (k_temp (s_d s))) (s_d s) ->
  Bs s' /\ (w = true -> Wm s' /\ Ab [] s' /\ matched (r_tab r) (s_tab s') [] /\ (flt = false -> s_tab s' = [])).
Proof.
  intros o flt r s s' w H Hd Hnd HB HW. unfold filter_step in H.
  destruct (create (negb flt) (o_dest0 o) (o_init o) (o_initdel o) s) as [s1 w1] eqn:E1.
  assert (B1 : Bs s1) by (pose proof (create_Bs truth d0 (negb flt) (o_dest0 o) (o_init o) (o_initdel o) s HB) as B1;
                          rewrite E1 in B1; exact B1).
  destruct w1; cbn [negb] in H. 2:{ injection H as <- <-. split; [exact B1|discriminate]. }
  eapply create_ok in E1; eauto; [|apply Hd].
  destruct E1 as (_ & W1 & A1 & _ & _ & K1 & Z1).
  set (P := if flt then _ else (s1, true)) in H.
  assert (HP : Bs (fst P) /\ (snd P = true -> Wm (fst P) /\ Ab [] (fst P) /\ matched (r_tab r) (s_tab (fst P)) [] /\
                              (flt = false -> s_tab (fst P) = []))).
  { unfold P. destruct flt.
    - destruct (filter_before_copy o (r_tab r) (last_reader (o_open o) (s_d s1)) s1) as [sf ok] eqn:Ef.
      eapply filter_before_copy_ok in Ef; eauto.
      2:{ unfold last_reader. destruct (o_open o); auto. destruct (k_last (s_d s1)) as [(i, l)|]; auto.
          destruct (i =? 0); auto. destruct (isS (d_meta l)); auto. }
      destruct Ef as (Bf & _ & _ & Yf). destruct ok; cbn [fst snd].
      + destruct (Yf eq_refl) as (Wf & Af & _ & Mf). split; auto. intros _. sp; auto. discriminate.
      + set (sc := fst (close false true true (o_dest1 o) (set_werr (-1) sf))).
        assert (Bc : Bs sc) by (apply close_Bs; [exact Bf|cbn [set_werr s_werr]; discriminate]).
        clearbody sc. destruct (create true (o_dest2 o) (o_init2 o) (o_initdel o) sc) as [s2 w2] eqn:E2; cbn [fst snd].
        split.
        * pose proof (create_Bs truth d0 true (o_dest2 o) (o_init2 o) (o_initdel o) sc Bc) as B2.
          rewrite E2 in B2; exact B2.
        * intros ->. eapply create_ok in E2; eauto; [|apply Hd|discriminate].
          destruct E2 as (_ & W2 & A2 & _ & _ & _ & Z2). sp; auto; try discriminate.
          rewrite Z2 by auto. intros x y HH; discriminate HH.
    - cbn [fst snd]. split; auto. intros _. rewrite (Z1 eq_refl). sp; auto. intros x y HH; discriminate HH. }
  destruct P as [s2 w2]; cbn [fst snd] in HP. destruct HP as (B2 & Y2).
  destruct w2; cbn [negb] in H. 2:{ injection H as <- <-. split; [exact B2|discriminate]. }
  destruct (Y2 eq_refl) as (W2 & A2 & M2 & Z2).
  destruct (sync (o_sync2 o) (set_idx (r_idx r) s2)) as [s4 ok] eqn:E4.
  eapply sync_ok in E4; eauto.
  destruct E4 as (B4 & W4 & T4 & I4 & _ & Ek & F4 & C4 & K4 & _). cbn [set_idx s_tab s_d] in *.
  assert (G : Bs s4 /\ (true = true -> Wm s4 /\ Ab [] s4 /\ matched (r_tab r) (s_tab s4) [] /\ (flt = false -> s_tab s4 = []))).
  { split; auto. intros _. split; auto. split; [|rewrite T4; auto].
    intros x Hx. rewrite F4. apply A2. congruence. }
  destruct ok; injection H as <- <-; exact G.
Qed.

Lemma matched_X : forall r s, honest truth r -> Wm s -> matched (r_tab r) (s_tab s) [] -> X r s.
Proof.
  intros r s (Hnd & Hh) HW HM n lm Hn. destruct (HM n lm Hn) as [[]|(m & Hm & He & Hc)].
  exists m. sp; auto. intros Hf. destruct (m_ck m) as [c|] eqn:Ec; [|congruence].
  rewrite (HW n lm c Hn Hf He). destruct (Hh n m Hm) as (_ & Hd). rewrite (Hd c Ec). reflexivity.
Qed.

End M.

Lemma in_look_nd : forall {A} (l : list (Z * A)) n m, NoDup (map fst l) -> In (n, m) l -> look n l = Some m.
Proof.
  induction l as [|(x, y) l IH]; intros n m Hnd Hi; [destruct Hi|]. cbn [map fst] in Hnd.
  inversion Hnd; subst. cbn [look]. destruct Hi as [Hi|Hi].
  - injection Hi as -> ->. rewrite Z.eqb_refl. reflexivity.
  - destruct (Z.eqb_spec x n) as [->|]; auto. exfalso. apply H1. apply in_map_iff. exists (n, m). auto.
Qed.

(** What is published, when a writer state [s] satisfies X before the loop. *)
Lemma copy_with_writer_pub : forall o flt r s, wfT (s_d s) -> X r s ->
  NoDup (map fst (r_tab r)) -> (forall n m, look n (r_tab r) = Some m -> m_ref m = false) ->
  npub (s_tr s) = true -> s_idx s = r_idx r ->
  let s' := copy_with_writer o flt true r s in
  npub (s_tr s') = false ->
  exists l, k_last (s_d s') = Some (r_idx r, l) /\ same_snapshot (s_d s') l r /\
    (forall x lm, look x (table_of l) = Some lm -> look x (s_tab s) = Some lm \/ look x (r_tab r) = Some lm).
Proof.
  intros o flt r s Hw HX Hnd Hr Hnp Hi s' Hp. subst s'. unfold copy_with_writer in *. rewrite andb_true_r in *.
  set (s1 := if s_ok s then copy_loop o r (r_tab r) s else s) in *.
  assert (F1 : s_idx s1 = s_idx s /\ npub (s_tr s1) = npub (s_tr s)).
  { unfold s1. destruct (s_ok s); [|split; auto]. pose proof (copy_loop_Fr o r (r_tab r) s) as (A & B & _). split; auto. }
  assert (X1 : s_ok s1 = true -> wfT (s_d s1) /\ X r s1 /\
      (forall x, In x (map fst (r_tab r)) -> look x (s_tab s1) <> None) /\
      (forall x lm, look x (s_tab s1) = Some lm -> look x (s_tab s) = Some lm \/ look x (r_tab r) = Some lm)).
  { unfold s1. destruct (s_ok s) eqn:Eo; [|congruence]. intros Hok.
    destruct (copy_loop_X o r (r_tab r) s) as (A1 & A2 & A3 & A4); auto.
    { intros n m Hin. pose proof (in_look_nd _ _ _ Hnd Hin) as Hl. split; eauto. }
    sp; auto. }
  clearbody s1. destruct F1 as (I1 & N1).
  set (s2 := if negb (s_ok s1) && (s_werr s1 =? 0) then set_werr (-1) s1 else s1) in *.
  assert (F2 : s_idx s2 = s_idx s1 /\ s_tr s2 = s_tr s1 /\ s_d s2 = s_d s1 /\ s_tab s2 = s_tab s1 /\
               (s_werr s2 = 0 -> s_ok s1 = true)).
  { unfold s2. destruct (s_ok s1); cbn [negb andb]; [sp; auto|].
    destruct (Z.eqb_spec (s_werr s1) 0); cbn [set_werr s_idx s_tr s_d s_tab s_werr]; (sp; auto; try discriminate).
    }
  clearbody s2. destruct F2 as (I2 & R2 & D2 & T2 & W2).
  destruct (close flt (o_sync4 o) (o_rename o) (o_dest3 o) s2) as [s3 c] eqn:E3.
  assert (Hs3 : npub (s_tr s3) = false /\ s_d (if negb c && s_ok s3 then fail s3 else s3) = s_d s3).
  { destruct (negb c && s_ok s3); split; auto. }
  destruct Hs3 as (Hp3 & ->).
  apply close_cases in E3 as (_ & [(Hw0 & _ & _ & _ & _ & ->)|(Hn & _)]); [|congruence].
  destruct (X1 (W2 Hw0)) as (Y1 & Y2 & Y3 & Y4).
  set (l := mkDir (Some (s_idx s2, s_tab s2)) (d_files (k_temp (s_d s2)))).
  exists l. cbn [emit s_d s_idx s_tab apply set_temp k_last k_temp k_ino].
  split; [unfold l; congruence|].
  assert (Ht : table_of l = s_tab s1) by (unfold l, table_of; cbn [d_meta]; exact T2).
  rewrite <- T2 in *.
  assert (Hcont : forall d n, k_ino d = k_ino (s_d s2) -> content d l n = tcont (s_d s2) n).
  { intros d n Hd. unfold content, tcont, tfile, l. cbn [d_files]. rewrite Hd. reflexivity. }
  split; [split|].
  - intros n. rewrite Ht. destruct (look n (r_tab r)) as [m|] eqn:Em.
    + assert (look n (s_tab s2) <> None) by (apply Y3; eapply look_in; eauto).
      destruct (look n (s_tab s2)); [reflexivity|congruence].
    + destruct (look n (s_tab s2)) as [lm|] eqn:El; auto.
      destruct (Y2 n lm) as (m & Hm & _); [congruence|congruence].
  - intros n m Hm.
    assert (Hne : look n (s_tab s2) <> None) by (apply Y3; eapply look_in; eauto).
    destruct (look n (s_tab s2)) as [lm|] eqn:El; [|congruence]. rewrite <- Ht in El.
    exists lm. split; [exact El|]. rewrite Ht, T2 in El. destruct (Y2 n lm El) as (m' & Hm' & Hck & Hc).
    assert (m' = m) by congruence. subst m'. split; auto. intros Hf. rewrite Hcont by reflexivity.
    rewrite D2. auto.
  - intros x lm Hx. rewrite Ht in Hx. auto.
Qed.

Lemma copy_pub_writer : forall o flt cf r d, npub (s_tr (fst (copy o flt cf r d))) = false ->
  exists s1, o_meta o = true /\ filter_step o flt r (start d) = (s1, true) /\ fst (copy o flt cf r d) = copy_with_writer o flt cf r s1.
Proof.
  intros o flt cf r d H. unfold copy in *. cbn [fst] in *. destruct (o_meta o); [|discriminate H].
  destruct (filter_step o flt r (start d)) as [s1 w] eqn:E. destruct w; [eauto|].
  apply filter_step_Fr in E as (N & _). rewrite N in H. discriminate H.
Qed.

(** Every disk of a history is in order. *)
Lemma copy_Bs : forall truth o flt cf r d, deletes_ok o -> honest truth r -> OK truth d false ->
  Bs truth d (fst (copy o flt cf r d)).
Proof.
  intros truth o flt cf r d Hd Hh HO.
  assert (B0 : Bs truth d (start d)).
  { split; [reflexivity|]. cbn. split; auto. split; auto. intros _; apply lsame_refl. }
  unfold copy. cbn [fst]. destruct (o_meta o); [|exact B0].
  destruct (filter_step o flt r (start d)) as [s1 w] eqn:E.
  pose proof E as E'. eapply filter_step_Bs in E; eauto; [|apply Hh|apply HO; auto].
  destruct E as (B1 & Y1). destruct w; [|exact B1].
  destruct (Y1 eq_refl) as (W1 & A1 & M1 & Z1). unfold copy_with_writer.
  set (s2 := if s_ok s1 && cf then copy_loop o r (r_tab r) s1 else s1).
  assert (B2 : Bs truth d s2 /\ Wm truth s2).
  { unfold s2. destruct (s_ok s1 && cf); [|split; auto]. apply copy_loop_Bs; auto.
    intros n m Hi c Hc. destruct Hh as (Hnd & Hh). destruct (Hh n m) as (_ & HH); auto. apply in_look_nd; auto. }
  clearbody s2. destruct B2 as (B2 & W2).
  set (s3 := if negb (s_ok s2) && (s_werr s2 =? 0) then set_werr (-1) s2 else s2).
  assert (B3 : Bs truth d s3 /\ Wm truth s3) by (unfold s3; destruct (negb (s_ok s2) && (s_werr s2 =? 0)); split; auto).
  clearbody s3. destruct B3 as (B3 & W3).
  pose proof (close_Bs truth d flt (o_sync4 o) (o_rename o) (o_dest3 o) s3 B3 (fun _ => W3)) as B4.
  destruct (close flt (o_sync4 o) (o_rename o) (o_dest3 o) s3) as [s4 c]; cbn [fst] in B4.
  destruct (negb c && s_ok s4); exact B4.
Qed.

(** saving *)
Lemma save_files_Bs : forall truth d fs s, Bs truth d s -> Wm truth s -> Ab [] s ->
  NoDup (map (fun x => fst (fst x)) fs) ->
  (forall n m b c, In (n, m, b) fs -> m_ck m = Some c -> b = truth n c) ->
  (forall n, In n (map (fun x => fst (fst x)) fs) -> look n (s_tab s) = None) ->
  Bs truth d (save_files fs s) /\ Wm truth (save_files fs s).
Proof.
  intros truth d; induction fs as [|((n, m), b) fs IH]; intros s HB HW HA Hnd Hh Hn; cbn [save_files]; [split; auto|].
  cbn [map fst] in *. inversion Hnd as [|? ? Hni Hnd']; subst.
  assert (El : look n (s_tab s) = None) by (apply Hn; left; auto).
  assert (N1 : NS n s). { left. destruct (HA n El) as [?|[]]; auto. }
  destruct (write_step truth d n b s HB N1) as (B1 & _).
  assert (W1 : W truth (s_tab s) (s_d (emit (EWrite n b) s))) by (apply (W_writes truth d [b] n s); auto).
  unfold add_file. change (s_tab (emit (EWrite n b) s)) with (s_tab s). rewrite El. cbn [isS fst].
  apply IH; auto.
  - intros x y c Hx Hf Hc. cbn [set_tab s_tab s_d] in *. rewrite look_cons in Hx.
    destruct (Z.eqb_spec n x) as [->|]; [|eapply W1; eauto]. injection Hx as <-. cbn [emit s_d].
    rewrite tcont_write. f_equal. eapply Hh; eauto. left; auto.
  - intros x. cbn [set_tab s_tab s_d]. rewrite look_cons. destruct (Z.eqb_spec n x); [discriminate|].
    intros Hx. pose proof (tfile_writes [b] n s x) as Hf. cbn [map emits] in Hf. rewrite Hf by auto. auto.
  - intros x y z c Hx. apply Hh. right; auto.
  - intros x Hx. cbn [set_tab s_tab]. rewrite look_cons. destruct (Z.eqb_spec n x) as [->|]; [contradiction|].
    apply Hn. right; auto.
Qed.

Lemma save_Bs : forall truth o i fs serr d, deletes_ok o -> honest_files truth fs -> OK truth d false ->
  Bs truth d (save o i fs serr d).
Proof.
  intros truth o i fs serr d Hd (Hnd & Hh) HO.
  assert (B0 : Bs truth d (start d)).
  { split; [reflexivity|]. cbn. split; auto. split; auto. intros _; apply lsame_refl. }
  unfold save. destruct (create true (o_dest0 o) (o_init o) (o_initdel o) (start d)) as [s1 w] eqn:E1.
  pose proof (create_Bs truth d true (o_dest0 o) (o_init o) (o_initdel o) _ B0) as B1. rewrite E1 in B1. cbn [fst] in B1.
  destruct w; [|exact B1]. eapply create_ok in E1; eauto; [|apply Hd|discriminate].
  destruct E1 as (_ & W1 & A1 & _ & _ & _ & Z1).
  destruct (save_files_Bs truth d fs s1) as (B2 & W2); auto.
  { intros n _. rewrite Z1; auto. }
  apply close_Bs; auto.
Qed.

Lemma hist_OK : forall truth d, hist truth d -> OK truth d false.
Proof.
  intros truth d H. induction H as [f|d o flt cf r k Hd IH Hh Hdel Hu|d o i fs serr k Hd IH Hh Hdel Hu].
  - split; [constructor; unfold tfile, lfile; cbn; discriminate|]. split.
    + intros i x HH; discriminate HH.
    + intros _ n m c HH; discriminate HH.
  - pose proof (copy_Bs truth o flt cf r d Hdel Hh IH) as (_ & Ha).
    apply allok_prefix with (k := k) in Ha as (Ha & _). unfold copy_trace in *. rewrite Hu in Ha. exact Ha.
  - pose proof (save_Bs truth o i fs serr d Hdel Hh IH) as (_ & Ha).
    apply allok_prefix with (k := k) in Ha as (Ha & _). unfold save_trace in *. rewrite Hu in Ha. exact Ha.
Qed.
