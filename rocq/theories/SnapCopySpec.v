(** * Specification vocabulary for copying snapshots (C54) *)
From Verif Require Import Base SnapCopy.

(** Bytes a reader of directory [x] sees under name [n]; None: no such file. *)
Definition content (d : disk) (x : dir) (n : Z) : option (list Z) :=
  match look n (d_files x) with Some i => Some (k_ino d i) | None => None end.

Definition table_of (x : dir) : table := match d_meta x with Some (_, t) => t | None => [] end.

(** Checksums identify contents: [truth n c] is what a file called [n] with
    checksum [c] contains, on whichever node it is. *)
Definition truth_fn := Z -> Z -> list Z.

(** Every file the directory's table lists with a checksum, and not as a
    reference, is there and has the contents the checksum stands for. *)
Definition good_dir (truth : truth_fn) (d : disk) (x : dir) : Prop :=
  forall n m c, look n (table_of x) = Some m -> m_ref m = false -> m_ck m = Some c ->
    content d x n = Some (truth n c).

(** A remote snapshot: distinct names, no references, contents as the checksums say. *)
Definition honest (truth : truth_fn) (r : remote) : Prop :=
  NoDup (map fst (r_tab r)) /\
  forall n m, look n (r_tab r) = Some m ->
    m_ref m = false /\ forall c, m_ck m = Some c -> r_data r n = truth n c.

(** The files an application saves, likewise. *)
Definition honest_files (truth : truth_fn) (fs : list (Z * fmeta * list Z)) : Prop :=
  NoDup (map (fun x => fst (fst x)) fs) /\
  forall n m b c, In (n, m, b) fs -> m_ck m = Some c -> b = truth n c.

(** The published snapshot [x] is the remote snapshot [r]: same names, same
    checksums, same bytes. *)
Definition same_snapshot (d : disk) (x : dir) (r : remote) : Prop :=
  (forall n, isS (look n (table_of x)) = isS (look n (r_tab r))) /\
  forall n m, look n (r_tab r) = Some m ->
    exists lm, look n (table_of x) = Some lm /\ m_ck lm = m_ck m /\
      (m_ref lm = false -> content d x n = Some (r_data r n)).

Definition apply_all (d : disk) (tr : list eff) : disk := fold_left apply tr d.

Definition touched (e : eff) : option Z :=
  match e with EDel n => Some n | ELink n => Some n | EWrite n _ => Some n | _ => None end.

(** [unsettled d tr]: after [tr] the meta file on disk lists a file that was
    deleted, linked or written since that meta file was written. *)
Fixpoint unsettled_from (u : bool) (d : disk) (tr : list eff) : bool :=
  match tr with
  | [] => u
  | e :: r =>
      let u' := match touched e with
                | Some n => u || isS (look n (table_of (k_temp d)))
                | None => false
                end in
      unsettled_from u' (apply d e) r
  end.
Definition unsettled := unsettled_from false.

Definition publishes (e : eff) : bool := match e with EPub _ => true | _ => false end.

(** unlink of temp files does not fail. *)
Definition deletes_ok (o : orac) : Prop := (forall n, o_initdel o n = true) /\ (forall n, o_del2 o n = true).

Definition copy_trace (o : orac) (flt cf : bool) (r : remote) (d : disk) : list eff :=
  rev (s_tr (fst (copy o flt cf r d))).
Definition save_trace (o : orac) (i : Z) (fs : list (Z * fmeta * list Z)) (serr : Z) (d : disk) : list eff :=
  rev (s_tr (save o i fs serr d)).

(** Disks a node can have: it starts empty, copies snapshots from remote nodes
    and saves its own, any of them failing anywhere, each cut by a crash (or not:
    k large) at any point where the meta file is settled. *)
Inductive hist (truth : truth_fn) : disk -> Prop :=
| h_empty : forall f, hist truth (mkDisk f 0 empty_dir None)
| h_copy : forall d o flt cf r k,
    hist truth d -> honest truth r -> deletes_ok o ->
    unsettled d (firstn k (copy_trace o flt cf r d)) = false ->
    hist truth (apply_all d (firstn k (copy_trace o flt cf r d)))
| h_save : forall d o i fs serr k,
    hist truth d -> honest_files truth fs -> deletes_ok o ->
    unsettled d (firstn k (save_trace o i fs serr d)) = false ->
    hist truth (apply_all d (firstn k (save_trace o i fs serr d))).

(** The last snapshot is the same directory with the same bytes. *)
Definition last_unchanged (d d' : disk) : Prop :=
  k_last d' = k_last d /\
  forall i x n, k_last d = Some (i, x) -> content d' x n = content d x n.
