(** Lemmas on the deletion of a group's data. *)
From Verif Require Import Base Gc.

Lemma teq_eq : forall a b, teq a b = true <-> a = b.
Proof.
  induction a as [|x a IH]; intros [|y b]; cbn [teq]; split; intros H; try discriminate; auto.
  - apply andb_true_iff in H. destruct H as [E H]. apply Z.eqb_eq in E. apply IH in H. congruence.
  - injection H as -> ->. rewrite Z.eqb_refl. apply IH. auto.
Qed.
Lemma teq_refl : forall a, teq a a = true. Proof. intros. apply teq_eq. auto. Qed.
Lemma teq_neq : forall a b, a <> b -> teq a b = false.
Proof. intros a b H. destruct (teq a b) eqn:E; auto. apply teq_eq in E. contradiction. Qed.
Lemma fset_same : forall f p d, fset f p d p = d. Proof. intros. unfold fset. rewrite teq_refl. auto. Qed.
Lemma fset_other : forall f p d q, q <> p -> fset f p d q = f q. Proof. intros. unfold fset. rewrite teq_neq; auto. Qed.
Lemma tmp_neq : forall p, p <> p ++ s_tmp.
Proof. intros p H. apply (f_equal (@length Z)) in H. rewrite app_length in H. cbn [length s_tmp] in H. lia. Qed.

Lemma delete_form : forall p o f f' r, delete_file p o f = (f', r) -> (forall q, q <> p -> f' q = f q) /\ (r = GOk -> f' p = None) /\ (f p = None -> f' p = None).
Proof.
  intros p o f f' r H. unfold delete_file in H. destruct o; injection H as <- <-; split; [|split| |split| |split]; intros; try discriminate; rewrite ?fset_same; auto using fset_other; rewrite H; reflexivity.
Qed.
(** everything gc_dir does *)
Lemma gc_form : forall path o f f' r, gc_dir path o f = (f', r) ->
  (f' path = f path \/ f' path = None) /\ (r = GOk -> f' path = None /\ f' (path ++ s_tmp) = None) /\
  (forall q, q <> path -> q <> path ++ s_tmp -> f' q = f q) /\ (f path = None -> f' path = None).
Proof.
  intros path o f f' r H. unfold gc_dir in H. destruct (delete_file (path ++ s_tmp) (g_del1 o) f) as [f1 r1] eqn:D. apply delete_form in D. destruct D as (a & b & _).
  pose proof (a path (tmp_neq path)) as Hp. assert (X : (f1, r1) = (f', r) -> r <> GOk -> (f' path = f path \/ f' path = None) /\ (r = GOk -> f' path = None /\ f' (path ++ s_tmp) = None) /\ (forall q, q <> path -> q <> path ++ s_tmp -> f' q = f q) /\ (f path = None -> f' path = None)).
  { intros E N. injection E as <- <-. split; [auto|]. split; [contradiction|]. split; [auto|congruence]. }
  destruct r1; [|apply X; [exact H|intros E; injection H as _ <-; discriminate]..]. clear X. specialize (b eq_refl). destruct (f1 path) as [d|] eqn:F.
  - destruct (g_ren o).
    + apply delete_form in H. destruct H as (a2 & b2 & _). assert (P : f' path = None). { rewrite a2 by apply tmp_neq. rewrite fset_other by apply tmp_neq. apply fset_same. }
      split; [auto|]. split; [auto|]. split; [|auto]. intros q h1 h2. rewrite a2 by auto. rewrite !fset_other by auto. auto.
    + injection H as <- <-. split; [left; congruence|]. split; [discriminate|]. split; [auto|congruence].
    + injection H as <- <-. split; [left; congruence|]. split; [discriminate|]. split; [auto|congruence].
    + injection H as <- <-. assert (P : fset (fset f1 path None) (path ++ s_tmp) (Some d) path = None) by (rewrite fset_other by apply tmp_neq; apply fset_same).
      split; [auto|]. split; [discriminate|]. split; [|auto]. intros q h1 h2. rewrite !fset_other by auto. auto.
  - injection H as <- <-. split; [auto|]. split; [auto|]. split; auto.
Qed.
Lemma gc_well : forall path f, snd (gc_dir path well f) = GOk.
Proof. intros. unfold gc_dir, well. cbn [g_del1 g_ren g_del2 delete_file]. destruct (fset f (path ++ s_tmp) None path); reflexivity. Qed.

(** strings *)
Lemma strip_app : forall pat s, strip pat (pat ++ s) = Some s.
Proof. induction pat as [|a pat IH]; intros s; [destruct s; reflexivity|]. cbn [strip app]. rewrite Z.eqb_refl. apply IH. Qed.
Lemma strip_cons : forall a pat s, (forall x r, s = x :: r -> x <> a) -> strip (a :: pat) s = None.
Proof. intros a pat [|x r] H; auto. cbn [strip]. destruct (Z.eqb_spec a x) as [->|]; auto. exfalso. exact (H x r eq_refl eq_refl). Qed.
Lemma cut_app : forall c pat a s, ~ In c a -> cut (c :: pat) (a ++ (c :: pat) ++ s) = Some (a, s).
Proof.
  induction a as [|x a IH]; intros s H.
  - cbn [app]. unfold cut. pose proof (strip_app (c :: pat) s) as E. cbn [app] in E. rewrite E. reflexivity.
  - assert (N : x <> c) by (intros ->; apply H; left; auto). assert (N2 : ~ In c a) by (intros K; apply H; right; auto).
    rewrite <- app_comm_cons. cbn [cut]. rewrite strip_cons by (intros y r E; injection E as <- <-; auto). rewrite IH by auto. reflexivity.
Qed.
Lemma cut_none : forall c pat s, ~ In c s -> cut (c :: pat) s = None.
Proof.
  induction s as [|x s IH]; intros H; cbn [cut]; [reflexivity|]. rewrite strip_cons by (intros y r E; injection E as <- <-; intros ->; apply H; left; auto). rewrite IH; auto. intros K. apply H. right. auto.
Qed.
Lemma ltrim_none : forall s, forallb (fun c => negb (is_space c)) s = true -> ltrim s = s.
Proof. intros [|c s] H; auto. cbn [ltrim forallb] in *. apply andb_true_iff in H. destruct H as [H _]. destruct (is_space c); [discriminate|auto]. Qed.
Lemma trim_none : forall s, forallb (fun c => negb (is_space c)) s = true -> trim s = s.
Proof.
  intros s H. unfold trim. rewrite (ltrim_none s H). rewrite ltrim_none; [apply rev_involutive|]. apply forallb_forall. intros x Hx. rewrite forallb_forall in H. apply H. apply in_rev. auto.
Qed.
Lemma filter_none : forall (P : Z -> bool) s, forallb P s = true -> filter P s = s.
Proof. induction s as [|c s IH]; intros H; auto. cbn [filter forallb] in *. apply andb_true_iff in H. destruct H as [H1 H2]. rewrite H1, IH; auto. Qed.
