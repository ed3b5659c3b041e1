(** C14: the mixed meta storage (both formats kept in step) never loses a reported save. *)
From Verif Require Import Base MetaMixed MetaMixedSpec MetaMixedProofs.

(** For every history of saves, reads and restarts with any outcome of each underlying
    write (crash between the two writes = the second fails, then restart): a read never
    aborts, returns something not older than any earlier save reported ok, and never
    invents a value. *)
Theorem mixed_meta_reads_latest : forall x es h1 r h2,
  start_ok x -> disciplined None (snd (m_run x es)) -> snd (m_run x es) = h1 ++ r :: h2 ->
  r <> RGet GAbort /\
  (forall p, r = RGet (GOk p) ->
     (forall q, In q (acked h1) -> ple q p) /\
     (In p (attempted h1) \/ p = s_disk x \/ m_db x = Some p \/ p = (1, ANY))).
Proof. exact mixed_reads. Qed.

(** After a successful read both storages hold the returned pair (the file too, when the
    read follows a restart). *)
Theorem mixed_meta_read_repairs : forall x wi a wr x' p,
  mixed_get x wi a wr = (x', GOk p) -> s_mem x' = p /\ m_db x' = Some p /\
  (s_mem x = s_disk x -> s_disk x' = p).
Proof. exact mixed_get_agree. Qed.

(** Non-vacuity: vote for 7 in term 5 saved; save of term 6 stored only in the file, then
    crash; the read returns the newer pair and repairs. *)
Definition ex_start := mkMx (1, ANY) (1, ANY) None.
Definition ex_es := [MGet WOk true WOk; MSet (5, 7) true WOk; MSet (6, ANY) true WFail; MRestart; MGet WOk true WOk].
Example ex_mixed : start_ok ex_start /\ disciplined None (snd (m_run ex_start ex_es)) /\
  snd (m_run ex_start ex_es) = [RGet (GOk (1, ANY)); RSet (5,7) true; RSet (6, ANY) false; RRestart; RGet (GOk (6, ANY))]
  /\ fst (m_run ex_start ex_es) = mkMx (6, ANY) (6, ANY) (Some (6, ANY)).
Proof. repeat split; cbn; unfold ple; cbn; try lia; auto. Qed.

(** The discipline is needed: two different votes in one term make the read abort. *)
Example ex_undisciplined :
  snd (m_run ex_start [MGet WOk true WOk; MSet (5, 7) true WOk; MSet (5, 8) true WFail; MRestart; MGet WOk true WOk])
  = [RGet (GOk (1, ANY)); RSet (5,7) true; RSet (5,8) false; RRestart; RGet GAbort].
Proof. reflexivity. Qed.

Print Assumptions mixed_meta_reads_latest.
Print Assumptions mixed_meta_read_repairs.
