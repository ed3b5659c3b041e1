(** Property C13. *)
From Verif Require Import Base Conf ConfSpec MetaFile MetaFileSpec MetaFileProofs.

(** C13 (a), process crashes and errors: wherever a save stops (error return or death of
    the process), the files hold the previous message, or the new one; a save that
    returned 0 has stored the new one; and this holds after any history, with or
    without fsync. *)
Theorem meta_save_atomic : forall sync es m pt,
  Forall ok_fevent es -> (sync = true \/ no_power es) -> fits m ->
  load (f_step sync (f_run sync fs_init es) (FSave m pt)) =
    match pt with P_done => L_msg m | _ => load (f_run sync fs_init es) end.
Proof.
  intros sync es m pt H1 H2 H3.
  destruct (run_inv sync es fs_init _ H1 H2 (inv_init sync)) as [vals HI].
  pose proof (save_inv sync m _ vals H3 HI pt) as H. destruct pt; exact (proj2 H).
Qed.
Print Assumptions meta_save_atomic.

(** C13 (b), power loss with fsync on: what is found afterwards is the message being
    saved (if its rename was reached) or one that was visible since the directory was
    last durable; never a mixture, never an unreadable file. *)
Theorem meta_power_loss_old_or_new : forall pre mid m pt c g,
  Forall ok_fevent (pre ++ mid) -> fits m -> barrier pre ->
  let f := f_run true fs_init pre in
  let v := load (f_step true (f_run true f mid) (FPower m pt c g)) in
  (exists p, prefix p mid /\ v = load (f_run true f p)) \/ (pt = P_done /\ v = L_msg m).
Proof. exact power_old_or_new. Qed.
Print Assumptions meta_power_loss_old_or_new.

(** C13 (c): the pair (term, votedFor) survives its encoding, so the statements above are
    about pairs. *)
Theorem meta_pair_roundtrip : forall t v,
  0 <= t < 9223372036854775808 -> valid_peer v -> int32 (p_port v) -> int32 (p_idx v) ->
  dec_meta (enc_meta t v) = Some (t, v) /\ fits (enc_meta t v).
Proof. exact meta_codec. Qed.
Print Assumptions meta_pair_roundtrip.

(** The three together for one save after a barrier: a restart reads the complete old
    pair or the complete new pair. *)
Theorem meta_reload_pair : forall sync es t v pt,
  Forall ok_fevent es -> (sync = true \/ no_power es) ->
  0 <= t < 9223372036854775808 -> valid_peer v -> int32 (p_port v) -> int32 (p_idx v) ->
  meta_load (f_step sync (f_run sync fs_init es) (FSave (enc_meta t v) pt)) =
    match pt with P_done => Some (t, v) | _ => meta_load (f_run sync fs_init es) end.
Proof.
  intros sync es t v pt H1 H2 H3 H4 H5 H6.
  destruct (meta_codec t v H3 H4 H5 H6) as [C F].
  unfold meta_load. rewrite (meta_save_atomic sync es _ pt H1 H2 F).
  destruct pt; try reflexivity. exact C.
Qed.
Print Assumptions meta_reload_pair.

(** A storage in which no save ever completed loads as the initial pair (term 1, no
    vote): it is never unreadable. *)
Theorem meta_initial_pair : forall sync es,
  (forall e, In e es -> exists m pt, e = FSave m pt /\ pt <> P_done /\ fits m) ->
  meta_load (f_run sync fs_init es) = Some (1, peer_reset).
Proof.
  intros sync es. induction es as [|e es IH] using rev_ind; intros H; [reflexivity|].
  destruct (H e) as (m & pt & -> & Hp & Hf); [apply in_or_app; right; left; auto|].
  assert (Hes : forall e0, In e0 es -> exists m0 pt0, e0 = FSave m0 pt0 /\ pt0 <> P_done /\ fits m0)
    by (intros; apply H; apply in_or_app; auto).
  unfold f_run in *. rewrite fold_left_app. cbn [fold_left]. unfold meta_load in *.
  fold (f_run sync fs_init es) in *. rewrite meta_save_atomic; auto.
  - destruct pt; auto. congruence.
  - apply Forall_forall. intros x Hx. destruct (Hes x Hx) as (m0 & pt0 & -> & _ & F). exact F.
  - right. intros m0 pt0 c g Hin. destruct (Hes _ Hin) as (m1 & pt1 & E & _). discriminate.
Qed.
Print Assumptions meta_initial_pair.

(** C13 (d), what does not hold: a save that returned 0 can be lost by a power failure,
    even with fsync on, because the directory is never fsynced (protobuf_file.cpp:81,
    file_system_adaptor.cpp:196).  The English claim is therefore limited to process
    crashes and to renames that reached the disk. *)
Theorem meta_save_durable_refuted : exists m choice,
  fits m /\ load (f_run true fs_init [FSave m P_done]) = L_msg m /\
  load (f_run true fs_init [FSave m P_done; FPower [] P_open choice (fun _ => [])]) = L_none.
Proof. exists [7; 8]. exists 2%nat. split; [|split]; vm_compute; reflexivity. Qed.
Print Assumptions meta_save_durable_refuted.

(** ... and with fsync off (raft_sync_meta=false and raft_sync=false) a power loss can
    leave a file that cannot be loaded. *)
Theorem meta_nosync_power_loss_refuted : exists m choice g,
  fits m /\ load (f_run false fs_init [FSave m P_done; FFlush; FPower [] P_open choice g]) = L_bad.
Proof. exists [7; 8]. exists 0%nat. exists (fun _ => []). split; vm_compute; reflexivity. Qed.
Print Assumptions meta_nosync_power_loss_refuted.

(** Non-vacuity: a failed save, a good one, a flush, a torn one, a power loss. *)
Definition ex_m1 := enc_meta 3 (mkPeer 16777217 8100 0 0).
Definition ex_m2 := enc_meta 300 peer_reset.
Definition ex_h : list fevent :=
  [FSave ex_m1 (P_body 5); FSave ex_m1 P_done; FFlush; FSave ex_m2 (P_header 2); FSave ex_m2 P_rename].
Example metafile_example :
  Forall ok_fevent ex_h /\
  meta_load (f_run true fs_init ex_h) = Some (3, mkPeer 16777217 8100 0 0) /\
  meta_load (f_run true fs_init (ex_h ++ [FSave ex_m2 P_done])) = Some (300, peer_reset) /\
  meta_load (f_run true fs_init (ex_h ++ [FPower ex_m2 P_done 0 (fun _ => [])])) = Some (300, peer_reset) /\
  meta_load (f_run true fs_init (ex_h ++ [FPower ex_m2 P_sync 0 (fun _ => [])])) = Some (3, mkPeer 16777217 8100 0 0).
Proof.
  split; [|repeat split; vm_compute; reflexivity].
  repeat (constructor; [vm_compute; first [reflexivity|exact I]|]). constructor.
Qed.
